(** * The properties of SortedDict *)
From Coq Require Import Permutation.
From Verif Require Import PyBase Model Spec History BaseFacts SpecFacts SliceFacts Shape FaultSpec FaultFacts FaultHist
  ListSim ListFacts KeyFacts HistFacts Reach ListProps
  ListClass ClassSpec ClassFacts ModelSet SetSpec HashFacts SetProps ModelDict DictSpec MapFacts DictFacts.
Local Unset Implicit Arguments.

(** ** Listings *)
Section Listings.
  Context {A B : Type}.
  Variables ltb eqb : A -> A -> bool.
  Hypothesis HW : SWO ltb.
  Hypothesis HE : Equiv eqb.
  Notation map_t := (list (A * B)).
  Notation keys := (map (@fst A B)).
  Notation dk := (distinct_keys eqb).
  Notation ls := (listing (B:=B) ltb).

  Lemma listing_sorted (d : map_t) : sorted ltb (keys (ls d)).
  Proof. rewrite listing_keys. apply sp_sort_sorted, HW. Qed.
  Lemma listing_present k v (d : map_t) : lookup eqb k d <> None ->
    ls (store eqb k v d) = map (fun p => (fst p, if eqb (fst p) k then v else snd p)) (ls d).
  Proof.
    intros H. unfold store. destruct (lookup eqb k d); [|congruence]. symmetry.
    exact (sp_sort_map (fun p => (fst p, if eqb (fst p) k then v else snd p)) (item_lt ltb) d).
  Qed.
  Lemma listing_absent k v (d : map_t) : lookup eqb k d = None ->
    exists a b, ls d = a ++ b /\ ls (store eqb k v d) = a ++ (k, v) :: b.
  Proof.
    intros H. unfold store. rewrite H. unfold listing. rewrite sp_sort_snoc.
    destruct (sp_add_cases (item_lt ltb) (item_swo ltb HW) (k, v) (sp_sort (item_lt ltb) d)) as (a & b & E1 & E2 & _).
    { apply sp_sort_sorted, item_swo, HW. }
    exists a, b. auto.
  Qed.
  Lemma erase_mid k a k' w b : dk (a ++ (k', w) :: b) -> eqb k' k = true -> erase (B:=B) eqb k (a ++ (k', w) :: b) = a ++ b.
  Proof.
    unfold distinct_keys. rewrite map_app. cbn [map fst]. intros HD Ek.
    pose proof (distinct_mid eqb HE _ _ _ k HD Ek) as Hm.
    assert (Hk : forall x : map_t, (forall p, In p x -> eqb (fst p) k = false) -> erase eqb k x = x).
    { induction x as [|p x IH]; intros H; [reflexivity|]. cbn. unfold same at 1. rewrite (H p (or_introl eq_refl)). cbn.
      f_equal. apply IH. intros q Hq. apply H. right. exact Hq. }
    unfold erase in *. rewrite filter_app. cbn. unfold same at 2. cbn. rewrite Ek. cbn.
    rewrite !Hk; [reflexivity| |]; intros p Hp; apply Hm; rewrite in_app_iff; [right|left]; apply in_map, Hp.
  Qed.
  Lemma lookup_erase k k' (d : map_t) : lookup eqb k' (erase eqb k d) = if eqb k k' then None else lookup eqb k' d.
  Proof.
    induction d as [|p d IH]; [destruct (eqb k k'); reflexivity|]. cbn. unfold same at 1. rewrite lookup_cons.
    destruct (eqb (fst p) k) eqn:E; cbn [negb].
    - fold (erase eqb k d). rewrite IH. rewrite (eqb_l eqb HE _ _ k' E). destruct (eqb k k'); reflexivity.
    - rewrite lookup_cons. fold (erase eqb k d). rewrite IH. destruct (eqb k k') eqn:E'; [|reflexivity].
      rewrite <- (eqb_r eqb HE _ _ (fst p) E'), E. reflexivity.
  Qed.
  Lemma has_key_lookup k (d : map_t) : dk d -> has_key eqb d k <-> lookup eqb k d <> None.
  Proof.
    intros HD. unfold has_key. split.
    - intros [v H]. apply (lookup_In eqb HE) in H; [congruence|exact HD].
    - intros H. destruct (lookup eqb k d) as [v|] eqn:E; [|congruence]. exists v. apply (lookup_In eqb HE); assumption.
  Qed.
  Lemma has_key_member k (d : map_t) : has_key eqb d k <-> member eqb k (keys d).
  Proof.
    unfold has_key, maps, member. split.
    - intros (v & k' & Hin & E). exists k'. split; [|exact E]. apply (in_map fst) in Hin. exact Hin.
    - intros (k' & Hin & E). apply in_map_iff in Hin. destruct Hin as ([k2 v] & <- & Hin). exists v, k2. auto.
  Qed.
  Lemma last_says_lookup ps k v : last_says (B:=B) eqb ps k v <-> lookup eqb k (rev ps) = Some v.
  Proof.
    split.
    - intros (a & k' & b & -> & E & Hb). rewrite rev_app_distr. cbn. rewrite <- app_assoc. rewrite lookup_app.
      replace (lookup eqb k (rev b)) with (@None B).
      + cbn [app]. rewrite lookup_cons. cbn. rewrite E. reflexivity.
      + symmetry. apply lookup_None. intros p Hp. apply Hb. apply in_rev, Hp.
    - intros H. destruct (lookup_cases eqb k (rev ps)) as [(a & k' & w & b & Ep & E & Ha & El)|(_ & El)]; [|congruence].
      rewrite El in H. injection H as ->. exists (rev b), k', (rev a). split.
      + rewrite <- (rev_involutive ps), Ep, rev_app_distr. cbn. rewrite <- app_assoc. reflexivity.
      + split; [exact E|]. intros p Hp. apply Ha. apply in_rev, Hp.
  Qed.
  Lemma unsaid ps k : lookup (B:=B) eqb k (rev ps) = None <-> (forall p, In p ps -> eqb (fst p) k = false).
  Proof. rewrite lookup_None. split; intros H p Hp; apply H; [apply in_rev in Hp; exact Hp|apply in_rev, Hp]. Qed.
  (** What [merge] stores. *)
  Lemma merge_maps k w (d ps : map_t) : dk d -> maps eqb (ls (merge eqb d ps)) k w <->
    last_says eqb ps k w \/ ((forall p, In p ps -> eqb (fst p) k = false) /\ maps eqb (ls d) k w).
  Proof.
    intros HD. pose proof (merge_dk eqb ps d HD) as HM.
    rewrite <- (lookup_In eqb HE) by (apply listing_dk; assumption). rewrite (lookup_listing ltb eqb HW HE) by exact HM.
    rewrite <- (lookup_In eqb HE _ _ (ls d)) by (apply listing_dk; assumption). rewrite (lookup_listing ltb eqb HW HE) by exact HD.
    rewrite last_says_lookup, <- unsaid, (lookup_merge eqb HE). destruct (lookup eqb k (rev ps)).
    - split; [auto|]. intros [H|[H _]]; congruence.
    - split; [auto|]. intros [H|[_ H]]; congruence.
  Qed.
End Listings.

(** ** One operation, from the point of view of what is shown *)
Section Steps.
  Context {S A B K : Type}.
  Variable T : listcls S A K.
  Variables ltb eqb : A -> A -> bool.
  Variable veqb : B -> B -> bool.
  Variable fref : fwd A K -> list A -> out A * list A.
  Variable dflt : nat.
  Hypothesis HC : list_class T ltb eqb fref dflt.
  Notation SD := (sdict S A B).
  Notation reach := (sd_reach T eqb veqb).
  Notation shows := (sd_shows (B:=B) T eqb).
  Notation rs := (ref_step ltb eqb veqb fref).
  Notation ls := (listing (B:=B) ltb).
  Notation dk := (distinct_keys (B:=B) eqb).
  Notation keys := (map (@fst A B)).

  Lemma class_swo : SWO ltb.
  Proof. cls HC HK. apply HK. Qed.
  Lemma class_eqv : Equiv eqb.
  Proof. cls HC HK. apply HK. Qed.
  Lemma sd_reach_step (s : SD) o : reach s -> dop_ok eqb o -> reach (snd (sd_step T eqb veqb o s)).
  Proof.
    intros (a & s0 & ops & E0 & HF & ->) Ho. exists a, s0, (ops ++ [o]). split; [exact E0|].
    split; [apply Forall_app; split; auto|]. unfold sd_run. rewrite run_app. cbn.
    destruct (sd_step T eqb veqb o (snd (run (sd_step T eqb veqb) ops s0))). reflexivity.
  Qed.
  Lemma sd_facts (s : SD) : reach s -> shows s (ls (d_items s)) /\ dk (d_items s) /\
    sd_len s = (Ok (length (ls (d_items s))), s) /\ sd_iter T s = (Ok (keys (ls (d_items s))), s) /\
    sd_reversed T s = (Ok (rev (keys (ls (d_items s)))), s) /\ sd_values T eqb s = (Ok (map snd (ls (d_items s))), s).
  Proof.
    intros HR. cls HC HK. pose proof (sd_reach_ok T ltb eqb veqb fref dflt R ld HK s HR) as HI.
    split; [eapply sd_shows_ok; eauto|]. split; [apply HI|].
    split; [unfold sd_len, items_of, bind, get, ret; rewrite listing_length; [reflexivity|apply HK]|].
    split; [eapply sd_iter_ok; eauto|]. split; [eapply sd_reversed_ok; eauto|eapply sd_values_ok; eauto].
  Qed.
  Lemma shown (s : SD) l : reach s -> shows s l -> l = ls (d_items s) /\ dk (d_items s).
  Proof.
    intros HR HS. destruct (sd_facts s HR) as (H1 & H2 & _). split; [|exact H2]. eapply shows_unique; eauto.
  Qed.
  Lemma dict_step (s : SD) l o : reach s -> shows s l -> dop_ok eqb o ->
    exists d s', d_items s = d /\ l = ls d /\ dk d /\ dk l /\ sd_step T eqb veqb o s = (fst (rs o d), s') /\ reach s' /\
      d_items s' = snd (rs o d) /\ shows s' (ls (snd (rs o d))) /\ dk (snd (rs o d)).
  Proof.
    intros HR HS Ho. destruct (shown s l HR HS) as [-> HD]. cls HC HK.
    pose proof (sd_reach_ok T ltb eqb veqb fref dflt R ld HK s HR) as HI.
    destruct (sd_step_ok T ltb eqb veqb fref dflt R ld HK o s HI Ho) as (s' & E & Hd & HI' & _).
    exists (d_items s), s'. split; [reflexivity|]. split; [reflexivity|]. split; [exact HD|].
    split; [apply listing_dk; [apply HK|apply HK|exact HD]|]. split; [exact E|].
    split; [replace s' with (snd (sd_step T eqb veqb o s)) by (rewrite E; reflexivity); apply sd_reach_step; assumption|].
    split; [exact Hd|]. rewrite <- Hd. split; [eapply sd_shows_ok; eauto|apply HI'].
  Qed.
  Lemma rebind_reach_d (s : SD) o (m : M SD SD) n s1 :
    reach s -> dop_ok eqb o -> sd_step T eqb veqb o s = drebind m s -> m s = (Ok n, s1) -> reach n.
  Proof.
    intros HR Ho E Em. pose proof (sd_reach_step s o HR Ho) as H. rewrite E in H. unfold drebind in H.
    rewrite Em in H. exact H.
  Qed.
  (** The facts about the shown items that hold in every reachable state. *)
  Lemma reads (s : SD) l : reach s -> shows s l -> forall k,
    (exists b, sd_contains eqb k s = (Ok b, s) /\ (b = true <-> has_key eqb l k)) /\
    (forall v, maps eqb l k v -> sd_getitem eqb k s = (Ok v, s)) /\
    (~ has_key eqb l k -> sd_getitem eqb k s = (Err KeyError, s)).
  Proof.
    intros HR HS k. destruct (shown s l HR HS) as [-> HD].
    pose proof (listing_dk ltb eqb class_swo class_eqv _ HD) as HL.
    unfold sd_contains, sd_getitem, items_of, liftr, bind, get, ret. rewrite d_mem_lookup, d_get_lookup.
    pose proof (lookup_listing ltb eqb class_swo class_eqv k _ HD) as El.
    split; [|split].
    - eexists. split; [reflexivity|]. rewrite (has_key_lookup eqb class_eqv) by exact HL. rewrite El.
      destruct (lookup eqb k (d_items s)); split; congruence.
    - intros v H. apply (lookup_In eqb class_eqv) in H; [|exact HL]. rewrite El in H. rewrite H. reflexivity.
    - intros H. rewrite (has_key_lookup eqb class_eqv) in H by exact HL. rewrite El in H.
      destruct (lookup eqb k (d_items s)); [|reflexivity]. destruct H. discriminate.
  Qed.
End Steps.

(** ** C43 *)
Lemma c43_in_step : forall S A B K (T : listcls S A K) ltb eqb (veqb : B -> B -> bool) fref dflt s,
  list_class T ltb eqb fref dflt -> sd_reach T eqb veqb s ->
  exists l, sd_shows T eqb s l /\ sorted ltb (map fst l) /\ distinct eqb (map fst l) /\
    sd_len s = (Ok (length l), s) /\ sd_iter T s = (Ok (map fst l), s) /\
    sd_reversed T s = (Ok (rev (map fst l)), s) /\ sd_values T eqb s = (Ok (map snd l), s) /\
    forall k,
      (exists b, sd_contains eqb k s = (Ok b, s) /\ (b = true <-> member eqb k (map fst l))) /\
      (forall v, maps eqb l k v -> sd_getitem eqb k s = (Ok v, s)) /\
      (~ member eqb k (map fst l) -> sd_getitem eqb k s = (Err KeyError, s)).
Proof.
  intros S A B K T ltb eqb veqb fref dflt s HC HR.
  destruct (sd_facts T ltb eqb veqb fref dflt HC s HR) as (H1 & H2 & H3 & H4 & H5 & H6).
  exists (listing ltb (d_items s)). split; [exact H1|]. split; [apply listing_sorted, (class_swo T ltb eqb fref dflt HC)|].
  split; [apply (listing_dk ltb eqb (class_swo T ltb eqb fref dflt HC) (class_eqv T ltb eqb fref dflt HC)), H2|].
  do 4 (split; [assumption|]). intros k.
  destruct (reads T ltb eqb veqb fref dflt HC s _ HR H1 k) as ((b & Eb & Hb) & H7 & H8).
  rewrite has_key_member in *. split; [eauto|]. split; assumption.
Qed.

(** ** C44 *)
Lemma c44_history : forall S A B K (T : listcls S A K) ltb eqb (veqb : B -> B -> bool) fref dflt a ops,
  list_class T ltb eqb fref dflt -> Forall (dop_ok eqb) ops ->
  exists s0 s, sd_new T eqb a = Ok s0 /\ sd_shows T eqb s0 (listing ltb (merge eqb [] (pairs_of a))) /\
    sd_run T eqb veqb ops s0 = (fst (ref_run ltb eqb veqb fref ops (merge eqb [] (pairs_of a))), s) /\
    sd_shows T eqb s (listing ltb (snd (ref_run ltb eqb veqb fref ops (merge eqb [] (pairs_of a))))).
Proof.
  intros S A B K T ltb eqb veqb fref dflt a ops HC HF. cls HC HK.
  destruct (new_ok (B:=B) T ltb eqb fref dflt R ld HK a) as (s0 & E0 & Hd0 & HI0 & _).
  destruct (sd_run_ok T ltb eqb veqb fref dflt R ld HK ops s0 HI0 HF) as (s & E & Hd & HI & _).
  exists s0, s. split; [exact E0|]. rewrite <- Hd0. split; [eapply sd_shows_ok; eauto|]. split; [exact E|].
  rewrite <- Hd. eapply sd_shows_ok; eauto.
Qed.

(** ** C45 *)
Section C45.
  Context {S A B K : Type}.
  Variable T : listcls S A K.
  Variables ltb eqb : A -> A -> bool.
  Variable fref : fwd A K -> list A -> out A * list A.
  Variable dflt : nat.
  Hypothesis HC : list_class T ltb eqb fref dflt.
  Notation ls := (listing (B:=B) ltb).
  Notation dk := (distinct_keys (B:=B) eqb).
  Let HW := class_swo T ltb eqb fref dflt HC.
  Let HE := class_eqv T ltb eqb fref dflt HC.

  Lemma store_shown k v d : dk d ->
    sorted ltb (map fst (ls (store eqb k v d))) /\ distinct eqb (map fst (ls (store eqb k v d))) /\
    (forall k' w, maps eqb (ls (store eqb k v d)) k' w <->
       (eqb k k' = true /\ w = v) \/ (eqb k k' = false /\ maps eqb (ls d) k' w)) /\
    ((has_key eqb (ls d) k /\ map fst (ls (store eqb k v d)) = map fst (ls d)) \/
     (~ has_key eqb (ls d) k /\ exists a b, ls d = a ++ b /\ ls (store eqb k v d) = a ++ (k, v) :: b)).
  Proof.
    intros HD. pose proof (store_dk eqb k v d HD) as HD'. pose proof (listing_dk ltb eqb HW HE _ HD) as HL.
    pose proof (listing_dk ltb eqb HW HE _ HD') as HL'.
    split; [apply listing_sorted, HW|]. split; [exact HL'|]. split.
    - intros k' w. rewrite <- !(lookup_In eqb HE) by assumption. rewrite !(lookup_listing ltb eqb HW HE) by assumption.
      rewrite (lookup_store eqb HE). destruct (eqb k k').
      + split; [intros [= ->]; auto|]. intros [[_ ->]|[H _]]; congruence.
      + split; [auto|]. intros [[H _]|[_ H]]; congruence.
    - rewrite (has_key_lookup eqb HE) by exact HL. rewrite (lookup_listing ltb eqb HW HE) by exact HD.
      destruct (lookup eqb k d) eqn:E.
      + left. split; [congruence|]. rewrite !listing_keys, store_keys, E. reflexivity.
      + right. split; [congruence|]. apply listing_absent; [exact HW|exact E].
  Qed.
  Lemma erase_shown k d : dk d ->
    (lookup eqb k d = None /\ ~ has_key eqb (ls d) k) \/
    (exists a k' w b, lookup eqb k d = Some w /\ ls d = a ++ (k', w) :: b /\ eqb k' k = true /\ ls (erase eqb k d) = a ++ b /\
       (forall k2 w2, maps eqb (a ++ b) k2 w2 <-> eqb k k2 = false /\ maps eqb (ls d) k2 w2)).
  Proof.
    intros HD. pose proof (listing_dk ltb eqb HW HE _ HD) as HL.
    pose proof (lookup_listing ltb eqb HW HE k _ HD) as El.
    destruct (lookup_cases eqb k (ls d)) as [(a & k' & w & b & Ed & Ek & _ & E)|(Hn & E)].
    - right. exists a, k', w, b. split; [congruence|]. split; [exact Ed|]. split; [exact Ek|].
      assert (Ee : ls (erase eqb k d) = a ++ b).
      { unfold erase. rewrite listing_filter by exact HW. fold (erase eqb k (ls d)). rewrite Ed in HL |- *.
        apply (erase_mid eqb HE); assumption. }
      split; [exact Ee|]. intros k2 w2. rewrite <- Ee.
      pose proof (erase_dk eqb k d HD) as HD'.
      rewrite <- !(lookup_In eqb HE) by (try apply listing_dk; assumption).
      rewrite !(lookup_listing ltb eqb HW HE) by assumption. rewrite (lookup_erase eqb HE).
      destruct (eqb k k2); split; try tauto; try discriminate. intros [H _]; discriminate.
    - left. split; [congruence|]. rewrite (has_key_lookup eqb HE) by exact HL. congruence.
  Qed.
End C45.

Lemma c45_set : forall S A B K (T : listcls S A K) ltb eqb (veqb : B -> B -> bool) fref dflt s l k v,
  list_class T ltb eqb fref dflt -> sd_reach T eqb veqb s -> sd_shows T eqb s l ->
  exists s' l', sd_step T eqb veqb (DSet k v) s = (ONone, s') /\ sd_reach T eqb veqb s' /\ sd_shows T eqb s' l' /\
    (forall k' w, maps eqb l' k' w <-> (eqb k k' = true /\ w = v) \/ (eqb k k' = false /\ maps eqb l k' w)) /\
    ((has_key eqb l k /\ map fst l' = map fst l) \/
     (~ has_key eqb l k /\ sorted ltb (map fst l') /\ exists a b, l = a ++ b /\ l' = a ++ (k, v) :: b)).
Proof.
  intros S A B K T ltb eqb veqb fref dflt s l k v HC HR HS.
  destruct (dict_step T ltb eqb veqb fref dflt HC s l (DSet k v) HR HS I) as (d & s' & _ & -> & HD & _ & E & HR' & _ & HS' & _).
  destruct (store_shown T ltb eqb fref dflt HC k v d HD) as (H1 & _ & H3 & H4).
  exists s', (listing ltb (store eqb k v d)). split; [exact E|]. split; [exact HR'|]. split; [exact HS'|]. split; [exact H3|].
  destruct H4 as [H|[Hn H]]; auto.
Qed.
Lemma c45_del : forall S A B K (T : listcls S A K) ltb eqb (veqb : B -> B -> bool) fref dflt s l k,
  list_class T ltb eqb fref dflt -> sd_reach T eqb veqb s -> sd_shows T eqb s l ->
  exists r s', sd_step T eqb veqb (DDel k) s = (r, s') /\ sd_reach T eqb veqb s' /\
    ((~ has_key eqb l k /\ r = OExn KeyError /\ sd_shows T eqb s' l) \/
     (exists a k' w b, l = a ++ (k', w) :: b /\ eqb k' k = true /\ r = ONone /\ sd_shows T eqb s' (a ++ b) /\
        forall k2 w2, maps eqb (a ++ b) k2 w2 <-> eqb k k2 = false /\ maps eqb l k2 w2)).
Proof.
  intros S A B K T ltb eqb veqb fref dflt s l k HC HR HS.
  destruct (dict_step T ltb eqb veqb fref dflt HC s l (DDel k) HR HS I) as (d & s' & _ & -> & HD & _ & E & HR' & _ & HS' & _).
  eexists _, s'. split; [exact E|]. split; [exact HR'|]. cbn [ref_step fst snd] in *.
  destruct (erase_shown T ltb eqb fref dflt HC k d HD) as [(El & Hn)|(a & k' & w & b & El & Ed & Ek & Ee & Hm)]; rewrite El in *; cbn [fst snd] in *.
  - left. auto.
  - right. exists a, k', w, b. rewrite Ee in HS'. auto 6.
Qed.
Lemma c45_pop : forall S A B K (T : listcls S A K) ltb eqb (veqb : B -> B -> bool) fref dflt s l k dv,
  list_class T ltb eqb fref dflt -> sd_reach T eqb veqb s -> sd_shows T eqb s l ->
  exists r s', sd_step T eqb veqb (DPop k dv) s = (r, s') /\ sd_reach T eqb veqb s' /\
    ((~ has_key eqb l k /\ r = match dv with Some v => OVal v | None => OExn KeyError end /\ sd_shows T eqb s' l) \/
     (exists a k' w b, l = a ++ (k', w) :: b /\ eqb k' k = true /\ r = OVal w /\ sd_shows T eqb s' (a ++ b) /\
        forall k2 w2, maps eqb (a ++ b) k2 w2 <-> eqb k k2 = false /\ maps eqb l k2 w2)).
Proof.
  intros S A B K T ltb eqb veqb fref dflt s l k dv HC HR HS.
  destruct (dict_step T ltb eqb veqb fref dflt HC s l (DPop k dv) HR HS I) as (d & s' & _ & -> & HD & _ & E & HR' & _ & HS' & _).
  eexists _, s'. split; [exact E|]. split; [exact HR'|]. cbn [ref_step fst snd] in *.
  destruct (erase_shown T ltb eqb fref dflt HC k d HD) as [(El & Hn)|(a & k' & w & b & El & Ed & Ek & Ee & Hm)]; rewrite El in *; cbn [fst snd] in *.
  - left. split; [exact Hn|]. destruct dv; auto.
  - right. exists a, k', w, b. rewrite Ee in HS'. auto 6.
Qed.
Lemma c45_setdefault : forall S A B K (T : listcls S A K) ltb eqb (veqb : B -> B -> bool) fref dflt s l k v,
  list_class T ltb eqb fref dflt -> sd_reach T eqb veqb s -> sd_shows T eqb s l ->
  exists r s', sd_step T eqb veqb (DSetDefault k v) s = (r, s') /\ sd_reach T eqb veqb s' /\
    ((exists w, maps eqb l k w /\ r = OVal w /\ sd_shows T eqb s' l) \/
     (~ has_key eqb l k /\ r = OVal v /\ exists a b, l = a ++ b /\ sd_shows T eqb s' (a ++ (k, v) :: b) /\
        sorted ltb (map fst (a ++ (k, v) :: b)))).
Proof.
  intros S A B K T ltb eqb veqb fref dflt s l k v HC HR HS.
  destruct (dict_step T ltb eqb veqb fref dflt HC s l (DSetDefault k v) HR HS I) as (d & s' & _ & -> & HD & HL & E & HR' & _ & HS' & _).
  eexists _, s'. split; [exact E|]. split; [exact HR'|]. cbn [ref_step fst snd] in *.
  pose proof (class_swo T ltb eqb fref dflt HC) as HW. pose proof (class_eqv T ltb eqb fref dflt HC) as HE.
  pose proof (lookup_listing ltb eqb HW HE k _ HD) as El.
  destruct (lookup eqb k d) as [w|] eqn:Ed; cbn [fst snd] in *.
  - left. exists w. split; [apply (lookup_In eqb HE); assumption|]. auto.
  - right. split; [rewrite (has_key_lookup eqb HE) by exact HL; congruence|]. split; [reflexivity|].
    destruct (listing_absent ltb eqb HW k v d Ed) as (a & b & E1 & E2). exists a, b. rewrite <- E2.
    split; [exact E1|]. split; [exact HS'|apply listing_sorted, HW].
Qed.
Lemma c45_read : forall S A B K (T : listcls S A K) ltb eqb (veqb : B -> B -> bool) fref dflt s l k v,
  list_class T ltb eqb fref dflt -> sd_reach T eqb veqb s -> sd_shows T eqb s l ->
  (exists w, maps eqb l k w /\ sd_step T eqb veqb (DGetItem k) s = (OVal w, s) /\
     sd_step T eqb veqb (DGet k v) s = (OVal w, s) /\ sd_step T eqb veqb (DContains k) s = (OBool true, s)) \/
  (~ has_key eqb l k /\ sd_step T eqb veqb (DGetItem k) s = (OExn KeyError, s) /\
     sd_step T eqb veqb (DGet k v) s = (OVal v, s) /\ sd_step T eqb veqb (DContains k) s = (OBool false, s)).
Proof.
  intros S A B K T ltb eqb veqb fref dflt s l k v HC HR HS.
  destruct (shown T ltb eqb veqb fref dflt HC s l HR HS) as [-> HD].
  pose proof (class_swo T ltb eqb fref dflt HC) as HW. pose proof (class_eqv T ltb eqb fref dflt HC) as HE.
  pose proof (listing_dk ltb eqb HW HE _ HD) as HL.
  pose proof (lookup_listing ltb eqb HW HE k _ HD) as El.
  cbn [sd_step]. unfold dsee, sd_getitem, sd_get, sd_contains, items_of, bind, get, ret, liftr.
  rewrite d_get_lookup, d_mem_lookup, <- El.
  destruct (lookup eqb k (listing ltb (d_items s))) as [w|] eqn:E.
  - left. exists w. split; [apply (lookup_In eqb HE); assumption|]. auto.
  - right. split; [rewrite (has_key_lookup eqb HE) by exact HL; congruence|]. auto.
Qed.

(** ** C46 *)
Lemma getz_pos {X} (l : list X) i :
  (out_of_range i l /\ getz l i = Err IndexError) \/ exists a x b, at_pos i l a x b /\ getz l i = Ok x.
Proof.
  destruct (sp_del_cases l i) as [(a & x & b & Ha & Hp & _ & Eg)|(Ho & _ & Eg)].
  - right. exists a, x, b. split; [split; assumption|exact Eg].
  - left. split; [exact Ho|exact Eg].
Qed.
Lemma erase_at {A B} (ltb eqb : A -> A -> bool) (HW : SWO ltb) (HE : Equiv eqb) (d : list (A * B)) i a p b :
  distinct_keys eqb d -> at_pos i (listing ltb d) a p b -> listing ltb (erase eqb (fst p) d) = a ++ b.
Proof.
  intros HD [Ha _]. unfold erase. rewrite listing_filter by exact HW. fold (erase eqb (fst p) (listing ltb d)).
  pose proof (listing_dk ltb eqb HW HE _ HD) as HL. rewrite Ha in *. destruct p as [k w]. apply (erase_mid eqb HE); [exact HL|].
  apply (eqv_refl HE).
Qed.
Lemma c46_positions : forall S A B K (T : listcls S A K) ltb eqb (veqb : B -> B -> bool) fref dflt s l i,
  list_class T ltb eqb fref dflt -> sd_reach T eqb veqb s -> sd_shows T eqb s l ->
  (exists r s', sd_step T eqb veqb (DPeekItem i) s = (r, s') /\ sd_reach T eqb veqb s' /\ sd_shows T eqb s' l /\
     ((out_of_range i l /\ r = OExn IndexError) \/ exists a p b, at_pos i l a p b /\ r = OItem p)) /\
  (exists r s', sd_step T eqb veqb (DPopItem i) s = (r, s') /\ sd_reach T eqb veqb s' /\
     ((l = [] /\ r = OExn KeyError /\ sd_shows T eqb s' l) \/
      (l <> [] /\ out_of_range i l /\ r = OExn IndexError /\ sd_shows T eqb s' l) \/
      exists a p b, at_pos i l a p b /\ r = OItem p /\ sd_shows T eqb s' (a ++ b))).
Proof.
  intros S A B K T ltb eqb veqb fref dflt s l i HC HR HS.
  pose proof (class_swo T ltb eqb fref dflt HC) as HW. pose proof (class_eqv T ltb eqb fref dflt HC) as HE. split.
  - destruct (dict_step T ltb eqb veqb fref dflt HC s l (DPeekItem i) HR HS I) as (d & s' & _ & -> & HD & _ & E & HR' & _ & HS' & _).
    eexists _, s'. split; [exact E|]. split; [exact HR'|]. cbn [ref_step fst snd] in *. split; [exact HS'|].
    destruct (getz_pos (listing ltb d) i) as [[Ho Eg]|(a & p & b & Hp & Eg)]; rewrite Eg; [left; auto|right; eauto].
  - destruct (dict_step T ltb eqb veqb fref dflt HC s l (DPopItem i) HR HS I) as (d & s' & _ & El & HD & _ & E & HR' & _ & HS' & _).
    eexists _, s'. split; [exact E|]. split; [exact HR'|]. cbn [ref_step fst snd] in *.
    assert (Hn : d = [] <-> l = []).
    { rewrite El. split; [intros ->; reflexivity|]. intros H. apply length_zero_iff_nil.
      rewrite <- (listing_length ltb HW), H. reflexivity. }
    destruct d as [|q d0] eqn:Ed.
    + left. cbn [fst snd] in *. rewrite (proj1 Hn eq_refl). auto.
    + rewrite <- Ed in *. assert (l <> []) as Hl by (intros H; apply Hn in H; congruence).
      destruct (getz_pos (listing ltb d) i) as [[Ho Eg]|(a & p & b & Hp & Eg)]; rewrite Eg in *; cbn [fst snd] in *.
      * right. left. rewrite El in *. auto.
      * right. right. exists a, p, b. rewrite El. split; [exact Hp|]. split; [reflexivity|].
        rewrite <- (erase_at ltb eqb HW HE d i a p b HD Hp). exact HS'.
Qed.

(** ** C47 *)
Lemma c47_update : forall S A B K (T : listcls S A K) ltb eqb (veqb : B -> B -> bool) fref dflt s l a,
  list_class T ltb eqb fref dflt -> sd_reach T eqb veqb s -> sd_shows T eqb s l ->
  exists s' l', sd_step T eqb veqb (DUpdate a) s = (ONone, s') /\ sd_reach T eqb veqb s' /\ sd_shows T eqb s' l' /\
    sorted ltb (map fst l') /\ distinct eqb (map fst l') /\
    forall k w, maps eqb l' k w <->
      last_says eqb (pairs_of a) k w \/ ((forall p, In p (pairs_of a) -> eqb (fst p) k = false) /\ maps eqb l k w).
Proof.
  intros S A B K T ltb eqb veqb fref dflt s l a HC HR HS.
  pose proof (class_swo T ltb eqb fref dflt HC) as HW. pose proof (class_eqv T ltb eqb fref dflt HC) as HE.
  destruct (dict_step T ltb eqb veqb fref dflt HC s l (DUpdate a) HR HS I) as (d & s' & _ & -> & HD & _ & E & HR' & _ & HS' & HD').
  cbn [ref_step fst snd] in *. eexists s', _. split; [exact E|]. split; [exact HR'|]. split; [exact HS'|].
  split; [apply listing_sorted, HW|]. split; [apply (listing_dk ltb eqb HW HE), HD'|].
  intros k w. apply merge_maps; assumption.
Qed.
Lemma c47_paths : forall S A B K (T : listcls S A K) ltb eqb (veqb : B -> B -> bool) fref dflt s ps,
  list_class T ltb eqb fref dflt -> sd_reach T eqb veqb s ->
  exists s0 s1 s2 l', sd_step T eqb veqb (DUpdate (APairs ps)) s = (ONone, s0) /\
    update_all T eqb ps s = (Ok tt, s1) /\ update_one_by_one T eqb ps s = (Ok tt, s2) /\
    sd_shows T eqb s0 l' /\ sd_shows T eqb s1 l' /\ sd_shows T eqb s2 l' /\
    d_items s1 = d_items s0 /\ d_items s2 = d_items s0.
Proof.
  intros S A B K T ltb eqb veqb fref dflt s ps HC HR.
  destruct (sd_facts T ltb eqb veqb fref dflt HC s HR) as (HS & _). cls HC HK.
  destruct (dict_step T ltb eqb veqb fref dflt HC s _ (DUpdate (APairs ps)) HR HS I) as (d & s0 & Hd & _ & HD & _ & E & _ & Hd0 & HS' & _).
  pose proof (sd_reach_ok T ltb eqb veqb fref dflt R ld HK s HR) as HI.
  destruct (update_all_ok T ltb eqb fref dflt R ld HK ps s HI) as (s1 & E1 & Hd1 & HI1 & _).
  destruct (set_each T ltb eqb fref dflt R ld HK ps s HI) as (s2 & E2 & Hd2 & HI2 & _).
  exists s0, s1, s2, (listing ltb (merge eqb d ps)). cbn [ref_step fst snd pairs_of] in *. rewrite Hd in *.
  split; [exact E|]. split; [exact E1|]. split; [exact E2|]. split; [exact HS'|].
  split; [rewrite <- Hd1; eapply sd_shows_ok; eauto|]. split; [rewrite <- Hd2; eapply sd_shows_ok; eauto|].
  split; congruence.
Qed.

(** ** C48 *)
Lemma slice_cases {X} sl (l : list X) :
  (s_step sl = Some 0%Z /\ sp_slice sl l = Err ValueError) \/
  (s_step sl <> Some 0%Z /\ exists x, sp_slice sl l = Ok x /\ slice_is sl l x).
Proof.
  destruct (slice_indices_cases sl (length l)) as [[E1 E2]|(E2 & a & b & st & E1)].
  - left. split; [exact E2|]. unfold sp_slice. rewrite E1. reflexivity.
  - right. split; [exact E2|]. apply sp_slice_is, E2.
Qed.
Lemma c48_index : forall S A B K (T : listcls S A K) ltb eqb (veqb : B -> B -> bool) fref dflt s l i,
  list_class T ltb eqb fref dflt -> sd_reach T eqb veqb s -> sd_shows T eqb s l ->
  exists rk ri rv s1 s2 s3,
    sd_step T eqb veqb (DKeyAt i) s = (rk, s1) /\ sd_step T eqb veqb (DItemAt i) s = (ri, s2) /\
    sd_step T eqb veqb (DValueAt i) s = (rv, s3) /\
    (forall s', In s' [s1; s2; s3] -> sd_reach T eqb veqb s' /\ sd_shows T eqb s' l) /\
    ((out_of_range i l /\ rk = OExn IndexError /\ ri = OExn IndexError /\ rv = OExn IndexError) \/
     exists a k w b, at_pos i l a (k, w) b /\ rk = OKey k /\ ri = OItem (k, w) /\ rv = OVal w).
Proof.
  intros S A B K T ltb eqb veqb fref dflt s l i HC HR HS.
  destruct (dict_step T ltb eqb veqb fref dflt HC s l (DKeyAt i) HR HS I) as (d1 & s1 & Hd1 & El1 & _ & _ & E1 & HR1 & _ & HS1 & _).
  destruct (dict_step T ltb eqb veqb fref dflt HC s l (DItemAt i) HR HS I) as (d2 & s2 & Hd2 & El2 & _ & _ & E2 & HR2 & _ & HS2 & _).
  destruct (dict_step T ltb eqb veqb fref dflt HC s l (DValueAt i) HR HS I) as (d3 & s3 & Hd3 & El3 & _ & _ & E3 & HR3 & _ & HS3 & _).
  cbn [ref_step fst snd] in *. rewrite <- El1, getz_map in *. rewrite <- El2, <- El3, getz_map in *.
  eexists _, _, _, s1, s2, s3. split; [exact E1|]. split; [exact E2|]. split; [exact E3|]. split.
  { intros s' [<-|[<-|[<-|[]]]]; auto. }
  destruct (getz_pos l i) as [[Ho Eg]|(a & [k w] & b & Hp & Eg)]; rewrite Eg; cbn.
  - left. auto.
  - right. exists a, k, w, b. auto.
Qed.
Lemma c48_slice : forall S A B K (T : listcls S A K) ltb eqb (veqb : B -> B -> bool) fref dflt s l sl,
  list_class T ltb eqb fref dflt -> sd_reach T eqb veqb s -> sd_shows T eqb s l ->
  exists rk ri rv s1 s2 s3,
    sd_step T eqb veqb (DKeySlice sl) s = (rk, s1) /\ sd_step T eqb veqb (DItemSlice sl) s = (ri, s2) /\
    sd_step T eqb veqb (DValueSlice sl) s = (rv, s3) /\
    (forall s', In s' [s1; s2; s3] -> sd_reach T eqb veqb s' /\ sd_shows T eqb s' l) /\
    ((s_step sl = Some 0%Z /\ rk = OExn ValueError /\ ri = OExn ValueError /\ rv = OExn ValueError) \/
     (s_step sl <> Some 0%Z /\ exists x, slice_is sl l x /\ rk = OKeys (map fst x) /\ ri = OItems x /\ rv = OVals (map snd x))).
Proof.
  intros S A B K T ltb eqb veqb fref dflt s l sl HC HR HS.
  destruct (dict_step T ltb eqb veqb fref dflt HC s l (DKeySlice sl) HR HS I) as (d1 & s1 & Hd1 & El1 & _ & _ & E1 & HR1 & _ & HS1 & _).
  destruct (dict_step T ltb eqb veqb fref dflt HC s l (DItemSlice sl) HR HS I) as (d2 & s2 & Hd2 & El2 & _ & _ & E2 & HR2 & _ & HS2 & _).
  destruct (dict_step T ltb eqb veqb fref dflt HC s l (DValueSlice sl) HR HS I) as (d3 & s3 & Hd3 & El3 & _ & _ & E3 & HR3 & _ & HS3 & _).
  cbn [ref_step fst snd] in *. rewrite <- El1, sp_slice_map in *. rewrite <- El2, <- El3, sp_slice_map in *.
  eexists _, _, _, s1, s2, s3. split; [exact E1|]. split; [exact E2|]. split; [exact E3|]. split.
  { intros s' [<-|[<-|[<-|[]]]]; auto. }
  destruct (slice_cases sl l) as [[Ho Eg]|(Ho & x & Eg & Hx)]; rewrite Eg; cbn.
  - left. auto.
  - right. split; [exact Ho|]. exists x. auto.
Qed.
Lemma c48_delete : forall S A B K (T : listcls S A K) ltb eqb (veqb : B -> B -> bool) fref dflt s l i sl,
  list_class T ltb eqb fref dflt -> sd_reach T eqb veqb s -> sd_shows T eqb s l ->
  (exists r s' l', sd_step T eqb veqb (DViewDel i) s = (r, s') /\ sd_reach T eqb veqb s' /\ sd_shows T eqb s' l' /\
     ((out_of_range i l /\ r = OExn IndexError /\ l' = l) \/
      exists a p b, at_pos i l a p b /\ r = ONone /\ l' = a ++ b)) /\
  (exists r s' l', sd_step T eqb veqb (DViewDelSlice sl) s = (r, s') /\ sd_reach T eqb veqb s' /\ sd_shows T eqb s' l' /\
     ((s_step sl = Some 0%Z /\ r = OExn ValueError /\ l' = l) \/
      (s_step sl <> Some 0%Z /\ r = ONone /\ slice_deleted sl l l'))).
Proof.
  intros S A B K T ltb eqb veqb fref dflt s l i sl HC HR HS.
  pose proof (class_swo T ltb eqb fref dflt HC) as HW. pose proof (class_eqv T ltb eqb fref dflt HC) as HE. split.
  - destruct (dict_step T ltb eqb veqb fref dflt HC s l (DViewDel i) HR HS I) as (d & s' & _ & -> & HD & _ & E & HR' & _ & HS' & _).
    eexists _, s', _. split; [exact E|]. split; [exact HR'|]. split; [exact HS'|]. cbn [ref_step fst snd] in *.
    destruct (getz_pos (listing ltb d) i) as [[Ho Eg]|(a & p & b & Hp & Eg)]; rewrite Eg in *; cbn [fst snd] in *; [left; auto|right].
    exists a, p, b. split; [exact Hp|]. split; [reflexivity|]. eapply erase_at; eauto.
  - destruct (dict_step T ltb eqb veqb fref dflt HC s l (DViewDelSlice sl) HR HS I) as (d & s' & _ & -> & HD & HL & E & HR' & _ & HS' & _).
    eexists _, s', _. split; [exact E|]. split; [exact HR'|]. split; [exact HS'|]. cbn [ref_step fst snd] in *.
    destruct (slice_cases sl (listing ltb d)) as [[Ho Eg]|(Ho & x & Eg & Hx)]; rewrite Eg in *; cbn [fst snd] in *; [left; auto|right].
    split; [exact Ho|]. split; [reflexivity|].
    set (peq := fun p q : A * B => eqb (fst p) (fst q)).
    assert (HP : Equiv peq).
    { split; unfold peq; intros; [apply (eqv_refl HE)|apply (eqv_sym HE); assumption|eapply (eqv_trans HE); eauto]. }
    assert (HPD : distinct peq (listing ltb d)).
    { clear - HL. unfold distinct_keys in HL. induction (listing ltb d) as [|p t IH]; [exact I|]. destruct HL as [H1 H2].
      split; [|apply IH, H2]. intros q Hq. apply H1, in_map, Hq. }
    destruct (slice_diff peq HP sl _ _ HPD Eg) as (l' & El' & Ediff).
    destruct (sp_del_slice_is sl (listing ltb d) Ho) as (l2 & El2 & Hd2). rewrite El' in El2. injection El2 as <-.
    rewrite listing_filter by exact HW. rewrite (set_diff_filter peq HP) in Ediff.
    rewrite <- Ediff in Hd2. exact Hd2.
Qed.

(** ** C49 *)
Section C49.
  Context {S A B K : Type}.
  Variable T : listcls S A K.
  Variables ltb eqb : A -> A -> bool.
  Variable veqb : B -> B -> bool.
  Variable fref : fwd A K -> list A -> out A * list A.
  Variable dflt : nat.
  Hypothesis HC : list_class T ltb eqb fref dflt.
  Notation ls := (listing (B:=B) ltb).

  (** A new SortedDict from pairs depending on the shown items. *)
  Lemma derived (m : M (sdict S A B) (sdict S A B)) (f : list (A * B) -> list (A * B)) s l o :
    sd_reach T eqb veqb s -> sd_shows T eqb s l -> dop_ok eqb o ->
    sd_step T eqb veqb o s = drebind m s ->
    (m s = match sd_new T eqb (APairs (f l)) with Ok n => (Ok n, s) | Err e => (Err e, s) end) ->
    exists n, m s = (Ok n, s) /\ sd_reach T eqb veqb n /\ sd_shows T eqb n (ls (merge eqb [] (f l))) /\
      sorted ltb (map fst (ls (merge eqb [] (f l)))) /\ distinct eqb (map fst (ls (merge eqb [] (f l)))) /\
      forall k w, maps eqb (ls (merge eqb [] (f l))) k w <-> last_says eqb (f l) k w.
  Proof.
    intros HR HS Ho Eo Em. cls HC HK. destruct (new_ok T ltb eqb fref dflt R ld HK (APairs (f l))) as (n & En & Hd & HI & _).
    rewrite En in Em. exists n. split; [exact Em|]. split; [eapply rebind_reach_d; eauto|].
    cbn [pairs_of] in Hd. rewrite <- Hd. split; [eapply sd_shows_ok; eauto|].
    split; [apply listing_sorted, HK|]. split; [apply (listing_dk ltb eqb (k_swo _ _ _ _ _ _ _ HK) (k_equiv _ _ _ _ _ _ _ HK)), HI|].
    intros k w. rewrite Hd. rewrite (merge_maps ltb eqb (k_swo _ _ _ _ _ _ _ HK) (k_equiv _ _ _ _ _ _ _ HK)) by exact I.
    split; [intros [H|[_ (k' & [] & _)]]; exact H|auto].
  Qed.
End C49.
Lemma last_says_app {A B} (eqb : A -> A -> bool) (a b : list (A * B)) k w : last_says eqb (a ++ b) k w <->
  last_says eqb b k w \/ ((forall p, In p b -> eqb (fst p) k = false) /\ last_says eqb a k w).
Proof.
  rewrite !last_says_lookup, rev_app_distr, lookup_app, <- unsaid. destruct (lookup eqb k (rev b)).
  - split; [auto|]. intros [H|[H _]]; congruence.
  - split; [auto|]. intros [H|[_ H]]; congruence.
Qed.
Lemma last_says_distinct {A B} (eqb : A -> A -> bool) (HE : Equiv eqb) (l : list (A * B)) k w : distinct_keys eqb l ->
  last_says eqb l k w <-> maps eqb l k w.
Proof.
  intros HD. assert (HP : Permutation l (rev l)) by apply Permutation_rev.
  rewrite last_says_lookup, <- (lookup_perm eqb HE k _ _ HP HD). apply (lookup_In eqb HE), HD.
Qed.
Lemma c49_or : forall S A B K (T : listcls S A K) ltb eqb (veqb : B -> B -> bool) fref dflt s l other,
  list_class T ltb eqb fref dflt -> sd_reach T eqb veqb s -> sd_shows T eqb s l -> distinct_keys eqb other ->
  (exists n l', sd_or T eqb other s = (Ok n, s) /\ sd_reach T eqb veqb n /\ sd_shows T eqb n l' /\
     sorted ltb (map fst l') /\ distinct eqb (map fst l') /\
     forall k w, maps eqb l' k w <-> maps eqb other k w \/ (~ has_key eqb other k /\ maps eqb l k w)) /\
  (exists n l', sd_ror T eqb other s = (Ok n, s) /\ sd_reach T eqb veqb n /\ sd_shows T eqb n l' /\
     sorted ltb (map fst l') /\ distinct eqb (map fst l') /\
     forall k w, maps eqb l' k w <-> maps eqb l k w \/ (~ has_key eqb l k /\ maps eqb other k w)) /\
  (exists s' l', sd_step T eqb veqb (DIOr (ADict other)) s = (ONone, s') /\ sd_reach T eqb veqb s' /\ sd_shows T eqb s' l' /\
     sorted ltb (map fst l') /\ distinct eqb (map fst l') /\
     forall k w, maps eqb l' k w <-> maps eqb other k w \/ (~ has_key eqb other k /\ maps eqb l k w)).
Proof.
  intros S A B K T ltb eqb veqb fref dflt s l other HC HR HS HO.
  pose proof (class_swo T ltb eqb fref dflt HC) as HW. pose proof (class_eqv T ltb eqb fref dflt HC) as HE.
  destruct (shown T ltb eqb veqb fref dflt HC s l HR HS) as [El HD].
  assert (HL : distinct_keys eqb l) by (rewrite El; apply listing_dk; assumption).
  assert (HN : forall x : list (A * B), distinct_keys eqb x -> forall k, (forall p, In p x -> eqb (fst p) k = false) <-> ~ has_key eqb x k).
  { intros x Hx k. rewrite (has_key_lookup eqb HE) by exact Hx. rewrite <- lookup_None.
    destruct (lookup eqb k x); split; try congruence; intros H; destruct H; discriminate. }
  split; [|split].
  - destruct (derived T ltb eqb veqb fref dflt HC (sd_or T eqb other) (fun l => l ++ other) s l (DOr other) HR HS I eq_refl) as (n & E & H1 & H2 & H3 & H4 & H5).
    { unfold sd_or, bind, liftr. rewrite HS. destruct (sd_new T eqb (APairs (l ++ other))); reflexivity. }
    eexists n, _. split; [exact E|]. split; [exact H1|]. split; [exact H2|]. split; [exact H3|]. split; [exact H4|].
    intros k w. rewrite H5, last_says_app, !(last_says_distinct eqb HE), HN by assumption. reflexivity.
  - destruct (derived T ltb eqb veqb fref dflt HC (sd_ror T eqb other) (fun l => other ++ l) s l (DROr other) HR HS I eq_refl) as (n & E & H1 & H2 & H3 & H4 & H5).
    { unfold sd_ror, bind, liftr. rewrite HS. destruct (sd_new T eqb (APairs (other ++ l))); reflexivity. }
    eexists n, _. split; [exact E|]. split; [exact H1|]. split; [exact H2|]. split; [exact H3|]. split; [exact H4|].
    intros k w. rewrite H5, last_says_app, !(last_says_distinct eqb HE), HN by assumption. reflexivity.
  - destruct (c47_update S A B K T ltb eqb veqb fref dflt s l (ADict other) HC HR HS) as (s' & l' & E & H1 & H2 & H3 & H4 & H5).
    exists s', l'. split; [exact E|]. do 4 (split; [assumption|]). intros k w. rewrite H5. cbn [pairs_of].
    rewrite (last_says_distinct eqb HE), HN by assumption. reflexivity.
Qed.
Lemma c49_copy : forall S A B K (T : listcls S A K) ltb eqb (veqb : B -> B -> bool) fref dflt s l,
  list_class T ltb eqb fref dflt -> sd_reach T eqb veqb s -> sd_shows T eqb s l ->
  exists n, sd_copy T eqb s = (Ok n, s) /\ sd_reach T eqb veqb n /\ sd_shows T eqb n l.
Proof.
  intros S A B K T ltb eqb veqb fref dflt s l HC HR HS.
  pose proof (class_swo T ltb eqb fref dflt HC) as HW. pose proof (class_eqv T ltb eqb fref dflt HC) as HE.
  destruct (shown T ltb eqb veqb fref dflt HC s l HR HS) as [El HD].
  destruct (derived T ltb eqb veqb fref dflt HC (sd_copy T eqb) (fun l => l) s l DCopy HR HS I eq_refl) as (n & E & H1 & H2 & _).
  { unfold sd_copy, bind, liftr. rewrite HS. destruct (sd_new T eqb (APairs l)); reflexivity. }
  exists n. split; [exact E|]. split; [exact H1|]. rewrite merge_self, El, listing_idem, <- El in H2; [exact H2|exact HW|].
  rewrite El. apply listing_dk; assumption.
Qed.
Lemma c49_fromkeys : forall A B K (ltb eqb : A -> A -> bool) (veqb : B -> B -> bool) dflt ks v,
  let T := plain (K:=K) (total2 ltb) (total2 eqb) dflt in
  TotalOrder ltb eqb -> 1 <= dflt ->
  exists n l, sd_fromkeys T eqb ks v = Ok n /\ sd_reach T eqb veqb n /\ sd_shows T eqb n l /\
    sorted ltb (map fst l) /\ distinct eqb (map fst l) /\
    forall k w, maps eqb l k w <-> w = v /\ member eqb k ks.
Proof.
  intros A B K ltb eqb veqb dflt ks v T HT Hd.
  assert (HC : list_class T ltb eqb (fwd_plain ltb eqb) dflt) by (apply class_plain; assumption).
  pose proof (class_swo T ltb eqb _ dflt HC) as HW. pose proof (class_eqv T ltb eqb _ dflt HC) as HE.
  cls HC HK. destruct (new_ok T ltb eqb _ dflt R ld HK (APairs (map (fun k => (k, v)) ks))) as (n & En & Hn & HI & _).
  exists n, (listing ltb (d_items n)). split; [exact En|].
  split; [exists (APairs (map (fun k => (k, v)) ks)), n, []; split; [exact En|]; split; [constructor|reflexivity]|].
  split; [eapply sd_shows_ok; eauto|]. split; [apply listing_sorted, HW|]. split; [apply (listing_dk ltb eqb HW HE), HI|].
  intros k w. rewrite Hn. rewrite (merge_maps ltb eqb HW HE) by exact I. cbn [pairs_of].
  rewrite last_says_lookup. split.
  - intros [H|[_ (k' & [] & _)]]. destruct (lookup_cases eqb k (rev (map (fun k => (k, v)) ks))) as [(a & k' & x & b & Ep & E & _ & El)|(_ & El)]; [|congruence].
    assert (Hin : In (k', x) (map (fun k => (k, v)) ks)) by (apply in_rev; rewrite Ep; apply in_elt).
    apply in_map_iff in Hin. destruct Hin as (k2 & [= <- <-] & Hk). split; [congruence|]. exists k2. auto.
  - intros [-> (k' & Hk & E)]. left.
    destruct (lookup_cases eqb k (rev (map (fun k => (k, v)) ks))) as [(a & k2 & x & b & Ep & _ & _ & El)|(H0 & El)].
    + assert (Hin : In (k2, x) (map (fun k => (k, v)) ks)) by (apply in_rev; rewrite Ep; apply in_elt).
      apply in_map_iff in Hin. destruct Hin as (k3 & [= <- <-] & _). exact El.
    + specialize (H0 (k', v)). cbn in H0. rewrite H0 in E; [discriminate|]. apply -> in_rev. apply in_map_iff. exists k'. auto.
Qed.

(** ** C50 *)
Lemma c50_ties : forall S A B K (T : listcls S A K) ltb eqb (veqb : B -> B -> bool) fref dflt a ops,
  list_class T ltb eqb fref dflt -> Forall (dop_ok eqb) ops ->
  exists s0 s ks, sd_new T eqb a = Ok s0 /\ s = snd (sd_run T eqb veqb ops s0) /\ sd_iter T s = (Ok ks, s) /\
    stable_sort_of ltb (map fst (snd (ref_run ltb eqb veqb fref ops (merge eqb [] (pairs_of a))))) ks.
Proof.
  intros S A B K T ltb eqb veqb fref dflt a ops HC HF. cls HC HK.
  destruct (new_ok (B:=B) T ltb eqb fref dflt R ld HK a) as (s0 & E0 & Hd0 & HI0 & _).
  destruct (sd_run_ok T ltb eqb veqb fref dflt R ld HK ops s0 HI0 HF) as (s & E & Hd & HI & _).
  exists s0, s, (map fst (listing ltb (d_items s))). split; [exact E0|]. split; [rewrite E; reflexivity|].
  split; [eapply sd_iter_ok; eauto|]. rewrite listing_keys, Hd, Hd0. apply sp_sort_stable, HK.
Qed.
Lemma c50_reduce : forall S A B K (T : listcls S A K) ltb eqb (veqb : B -> B -> bool) fref dflt s l insertion,
  list_class T ltb eqb fref dflt -> sd_reach T eqb veqb s -> sd_shows T eqb s l ->
  exists n, sd_reduce T eqb insertion s = (Ok n, s) /\ sd_reach T eqb veqb n /\ sd_shows T eqb n l.
Proof.
  intros S A B K T ltb eqb veqb fref dflt s l insertion HC HR HS.
  destruct (dict_step T ltb eqb veqb fref dflt HC s l (DReduce insertion) HR HS I) as (d & s' & Hd & El & HD & _ & E & HR' & _ & HS' & _).
  cls HC HK. cbn [ref_step fst snd sd_step] in *. unfold drebind in E.
  assert (H : exists n, sd_reduce T eqb insertion s = (Ok n, s)).
  { unfold sd_reduce, items_of, bind, get, ret, liftr. destruct insertion.
    - destruct (new_ok T ltb eqb fref dflt R ld HK (ADict (d_items s))) as (n & En & _). rewrite En. eauto.
    - rewrite HS. destruct (new_ok T ltb eqb fref dflt R ld HK (ADict l)) as (n & En & _). rewrite En. eauto. }
  destruct H as [n Hn]. rewrite Hn in E. injection E as ->. exists s'. split; [exact Hn|]. split; [exact HR'|].
  destruct insertion; [rewrite El; exact HS'|]. rewrite listing_idem in HS' by apply HK. rewrite El. exact HS'.
Qed.

(** ** C51 *)
Lemma c51_plain : forall A B K (ltb eqb : A -> A -> bool) (veqb : B -> B -> bool) dflt s l,
  let T := plain (K:=K) (total2 ltb) (total2 eqb) dflt in
  TotalOrder ltb eqb -> 1 <= dflt -> sd_reach T eqb veqb s -> sd_shows T eqb s l ->
  forall lt eq k v e s', sd_setitem (plain (K:=K) lt eq dflt) eqb k v s = (Err e, s') ->
    (exists x, lt k x = Err e) /\ ~ has_key eqb l k /\ s' = s.
Proof.
  intros A B K ltb eqb veqb dflt s l T HT Hd HR HS lt eq k v e s' E.
  pose proof (plain_ok (K:=K) ltb eqb HT dflt Hd) as HK.
  pose proof (sd_reach_ok _ _ _ _ _ _ _ _ HK s HR) as HI. pose proof HI as [[[HL _] _] _].
  assert (HC : list_class T ltb eqb (fwd_plain ltb eqb) dflt) by (apply class_plain; assumption).
  destruct (reads T ltb eqb veqb _ dflt HC s l HR HS k) as ((b & Eb & Hb) & _).
  unfold sd_contains, sd_setitem, items_of, bind, get, ret in *. destruct (d_mem eqb k (d_items s)); [discriminate|].
  injection Eb as <-. unfold onkeys, zoom in E. cbn [l_add plain] in E.
  destruct (sl_add_gen lt k _ HL) as [(e0 & E0 & y & Hy)|(c' & l1 & l2 & E0 & _)]; rewrite E0 in E; [|discriminate].
  injection E as <- <-. split; [eauto|]. split; [intros H; apply Hb in H; discriminate|]. destruct s; reflexivity.
Qed.
Lemma c51_keyed : forall A B K (key : A -> K) (kltb keqb : K -> K -> bool) (eqb : A -> A -> bool) (veqb : B -> B -> bool) dflt s l,
  let T := keyed (total2 eqb) (total2 kltb) (total2 keqb) (total1 key) dflt in
  TotalOrder kltb keqb -> Equiv eqb -> EqCompat (by_key key kltb) eqb -> 1 <= dflt ->
  sd_reach T eqb veqb s -> sd_shows T eqb s l ->
  forall klt keq eq k v e s', sd_setitem (keyed eq klt keq (total1 key) dflt) eqb k v s = (Err e, s') ->
    (exists x, klt (key k) x = Err e) /\ ~ has_key eqb l k /\ s' = s.
Proof.
  intros A B K key kltb keqb eqb veqb dflt s l T HT HE HC Hd HR HS klt keq eq k v e s' E.
  pose proof (keyed_ok key kltb keqb eqb HT HE HC dflt Hd) as HK.
  pose proof (sd_reach_ok _ _ _ _ _ _ _ _ HK s HR) as HI. pose proof HI as [[[HL _] _] _].
  assert (HCl : list_class T (by_key key kltb) eqb (fwd_keyed key kltb eqb) dflt) by (apply class_keyed; assumption).
  destruct (reads T _ eqb veqb _ dflt HCl s l HR HS k) as ((b & Eb & Hb) & _).
  unfold sd_contains, sd_setitem, items_of, bind, get, ret in *. destruct (d_mem eqb k (d_items s)); [discriminate|].
  injection Eb as <-. unfold onkeys, zoom in E. cbn [l_add keyed] in E.
  destruct (skl_add_gen (total1 key) klt k _ HL) as [(e0 & E0 & Hy)|(c' & kk & l1 & l2 & k1 & k2 & E0 & _)]; rewrite E0 in E; [|discriminate].
  injection E as <- <-. split; [destruct Hy as [Hy|(kk & y & Hk & Hy)]; [discriminate|injection Hk as <-; eauto]|].
  split; [intros H; apply Hb in H; discriminate|]. destruct s; reflexivity.
Qed.

(** ** C52 *)
Lemma c52_setdefault_refuted : exists (lt eq : nat -> nat -> res bool) dflt s0 s k (v : nat) e ks,
  let T := plain (K:=nat) lt eq dflt in
  1 <= dflt /\ sd_new T Nat.eqb (APairs [(1, 10); (2, 20)]) = Ok s0 /\
  sd_setdefault T Nat.eqb k v s0 = (Err e, s) /\ sd_contains Nat.eqb k s = (Ok true, s) /\
  sd_iter T s = (Ok ks, s) /\ ~ In k ks /\ sd_len s = (Ok (Datatypes.S (length ks)), s).
Proof.
  exists cranky, (total2 Nat.eqb), 4. eexists _, _, 5, 50, TypeError, [1; 2]. cbv zeta. split; [lia|].
  split; [vm_compute; reflexivity|]. split; [vm_compute; reflexivity|]. split; [vm_compute; reflexivity|].
  split; [vm_compute; reflexivity|]. split; [cbn; lia|vm_compute; reflexivity].
Qed.
Lemma c52_update_refuted : exists (lt eq : nat -> nat -> res bool) dflt s0 s1 s2 (a : darg nat nat) e,
  let T := plain (K:=nat) lt eq dflt in
  1 <= dflt /\ sd_new T Nat.eqb (APairs [(1, 10); (2, 20)]) = Ok s0 /\
  sd_update T Nat.eqb a s0 = (Err e, s1) /\
  sd_iter T s1 = (Ok [], s1) /\ sd_len s1 = (Ok 4, s1) /\
  (exists s00, sd_new T Nat.eqb (APairs []) = Ok s00 /\ sd_update T Nat.eqb a s00 = (Err e, s2)) /\
  sd_iter T s2 = (Ok [], s2) /\ sd_len s2 = (Ok 2, s2).
Proof.
  exists cranky, (total2 Nat.eqb), 4. eexists _, _, _, (ADict [(5, 50); (6, 60)]), TypeError. cbv zeta. split; [lia|].
  split; [vm_compute; reflexivity|]. split; [vm_compute; reflexivity|]. split; [vm_compute; reflexivity|].
  split; [vm_compute; reflexivity|]. split; [eexists; split; vm_compute; reflexivity|].
  split; vm_compute; reflexivity.
Qed.
(** What is left of [setdefault] when the comparison raises. *)
Lemma c52_setdefault : forall A B K (ltb eqb : A -> A -> bool) (veqb : B -> B -> bool) dflt s l,
  let T := plain (K:=K) (total2 ltb) (total2 eqb) dflt in
  TotalOrder ltb eqb -> 1 <= dflt -> sd_reach T eqb veqb s -> sd_shows T eqb s l ->
  forall lt eq k v e s', sd_setdefault (plain (K:=K) lt eq dflt) eqb k v s = (Err e, s') ->
    (exists x, lt k x = Err e) /\ ~ has_key eqb l k /\ d_list s' = d_list s /\ d_items s' = d_items s ++ [(k, v)].
Proof.
  intros A B K ltb eqb veqb dflt s l T HT Hd HR HS lt eq k v e s' E.
  pose proof (plain_ok (K:=K) ltb eqb HT dflt Hd) as HK.
  pose proof (sd_reach_ok _ _ _ _ _ _ _ _ HK s HR) as HI. pose proof HI as [[[HL _] _] _].
  assert (HC : list_class T ltb eqb (fwd_plain ltb eqb) dflt) by (apply class_plain; assumption).
  destruct (reads T ltb eqb veqb _ dflt HC s l HR HS k) as ((b & Eb & Hb) & _).
  unfold sd_contains, sd_setdefault, sd_getitem, items_of, bind, get, ret in *.
  pose proof (d_mem_lookup eqb k (d_items s)) as Em. pose proof (d_get_lookup eqb k (d_items s)) as Eg.
  destruct (d_mem eqb k (d_items s)) eqn:Ed.
  { destruct (lookup eqb k (d_items s)); [|discriminate]. unfold liftr in E. rewrite Eg in E. discriminate. }
  injection Eb as <-. unfold put_items, modify, onkeys, zoom in E. cbn [l_add plain d_list d_items] in E.
  destruct (sl_add_gen lt k _ HL) as [(e0 & E0 & y & Hy)|(c' & l1 & l2 & E0 & _)]; rewrite E0 in E; [|discriminate].
  injection E as <- <-. split; [eauto|]. split; [intros H; apply Hb in H; discriminate|]. cbn. split; [reflexivity|].
  unfold d_set. rewrite Ed. reflexivity.
Qed.

(** The list lists the keys of the dict, in whatever order. *)
Definition loosely {A B} (s : sdict (core A A) A B) : Prop :=
  LShape (d_list s) /\ Permutation (contents (d_list s)) (map fst (d_items s)).
Lemma setitem_loosely {A B K} (lt eq : A -> A -> res bool) (eqb : A -> A -> bool) dflt k (v : B) s : loosely s ->
  (exists s', sd_setitem (plain (K:=K) lt eq dflt) eqb k v s = (Ok tt, s') /\ loosely s' /\ d_items s' = store eqb k v (d_items s)) \/
  (exists e, sd_setitem (plain (K:=K) lt eq dflt) eqb k v s = (Err e, s) /\ exists x, lt k x = Err e).
Proof.
  intros [HL HP]. unfold sd_setitem, items_of, put_items, modify, bind, get, ret. rewrite d_mem_lookup, d_set_store.
  pose proof (store_keys eqb k v (d_items s)) as Ek. destruct (lookup eqb k (d_items s)).
  - left. eexists. split; [reflexivity|]. split; [|reflexivity]. split; [exact HL|]. cbn. rewrite Ek. exact HP.
  - unfold onkeys, zoom. cbn [l_add plain].
    destruct (sl_add_gen lt k _ HL) as [(e0 & E0 & y & Hy)|(c' & l1 & l2 & E0 & H1 & H2 & H3 & H4 & _)]; rewrite E0.
    + right. exists e0. split; [destruct s; reflexivity|eauto].
    + left. eexists. split; [reflexivity|]. split; [|reflexivity]. split; [exact H1|]. cbn. rewrite Ek, H4, <- HP, H3.
      rewrite <- Permutation_middle. apply Permutation_cons_append.
Qed.
Lemma each_loosely {A B K} (lt eq : A -> A -> res bool) (eqb : A -> A -> bool) dflt (ps : list (A * B)) : forall s, loosely s ->
  exists r s' a b, update_one_by_one (plain (K:=K) lt eq dflt) eqb ps s = (r, s') /\ loosely s' /\ ps = a ++ b /\
    d_items s' = merge eqb (d_items s) a /\ ((r = Ok tt /\ b = []) \/ exists e k x, r = Err e /\ lt k x = Err e).
Proof.
  induction ps as [|[k v] ps IH]; intros s HI.
  - exists (Ok tt), s, [], []. split; [reflexivity|]. split; [exact HI|]. auto 6.
  - unfold update_one_by_one in *. cbn [forM fst snd].
    destruct (setitem_loosely (K:=K) lt eq eqb dflt k v s HI) as [(s1 & E1 & HI1 & Hd1)|(e & E1 & x & Hx)].
    + destruct (IH s1 HI1) as (r & s' & a & b & E & H1 & H2 & H3 & H4). exists r, s', ((k, v) :: a), b.
      unfold bind. rewrite E1. split; [exact E|]. split; [exact H1|]. split; [cbn; congruence|]. split; [cbn; congruence|exact H4].
    + exists (Err e), s, [], ((k, v) :: ps). unfold bind. rewrite E1. split; [reflexivity|]. split; [exact HI|]. split; [reflexivity|].
      split; [reflexivity|]. right. eauto.
Qed.
Lemma c52_each : forall A B K (ltb eqb : A -> A -> bool) (veqb : B -> B -> bool) dflt s l,
  let T := plain (K:=K) (total2 ltb) (total2 eqb) dflt in
  TotalOrder ltb eqb -> 1 <= dflt -> sd_reach T eqb veqb s -> sd_shows T eqb s l ->
  forall lt eq ps e s', let T' := plain (K:=K) lt eq dflt in
    l <> [] -> 10 * length ps <= length l ->
    sd_update T' eqb (ADict ps) s = (Err e, s') ->
    (exists k x, lt k x = Err e) /\
    (exists a b, ps = a ++ b /\ d_items s' = merge eqb (d_items s) a) /\
    exists ks, sd_iter T' s' = (Ok ks, s') /\ Permutation ks (map fst (d_items s')) /\ sd_len s' = (Ok (length ks), s').
Proof.
  intros A B K ltb eqb veqb dflt s l T HT Hd HR HS lt eq ps e s' T' Hl Hps E.
  pose proof (plain_ok (K:=K) ltb eqb HT dflt Hd) as HK.
  assert (HC : list_class T ltb eqb (fwd_plain ltb eqb) dflt) by (apply class_plain; assumption).
  pose proof (class_swo T ltb eqb _ dflt HC) as HW.
  pose proof (sd_reach_ok _ _ _ _ _ _ _ _ HK s HR) as HI. pose proof HI as [[[HL _] Hc] _].
  destruct (shown T ltb eqb veqb _ dflt HC s l HR HS) as [El _].
  assert (Hlen : length l = length (d_items s)) by (rewrite El; apply listing_length, HW).
  assert (HY : loosely s).
  { split; [exact HL|]. rewrite Hc. apply Permutation_map, listing_perm, HW. }
  unfold sd_update, items_of, bind, get, ret in E.
  destruct (Nat.eqb_spec (length (d_items s)) 0) as [E0|E0].
  { rewrite <- Hlen in E0. apply length_zero_iff_nil in E0. congruence. }
  destruct (Nat.ltb_spec (length (d_items s)) (10 * length ps)) as [Hb|Hb]; [lia|].
  destruct (each_loosely (K:=K) lt eq eqb dflt ps s HY) as (r & s1 & a & b & E1 & [HL1 HP1] & Hab & Hd1 & Hr).
  fold (update_one_by_one T' eqb ps) in E. unfold T' in E. rewrite E1 in E. injection E as -> <-.
  split; [destruct Hr as [[H _]|(e0 & k & x & H & Hx)]; [discriminate|injection H as <-; eauto]|].
  split; [eauto|]. exists (contents (d_list s1)). split; [destruct s1; reflexivity|]. split; [exact HP1|].
  unfold sd_len, items_of, bind, get, ret. rewrite (Permutation_length HP1), map_length. reflexivity.
Qed.

(** ** C54 *)
Lemma dict_doc : forall S A B K (T : listcls S A K) ltb eqb (veqb : B -> B -> bool) fref dflt s o r s',
  list_class T ltb eqb fref dflt -> sd_reach T eqb veqb s -> dop_ok eqb o ->
  sd_step T eqb veqb o s = (r, s') ->
  ddocumented (exists f l, fst (fref f l) = RExn AttributeError) o r.
Proof.
  intros S A B K T ltb eqb veqb fref dflt s o r s' HC HR Ho E.
  destruct (sd_facts T ltb eqb veqb fref dflt HC s HR) as (HS & _).
  destruct (dict_step T ltb eqb veqb fref dflt HC s _ o HR HS Ho) as (d & s1 & _ & _ & _ & _ & E1 & _).
  rewrite E in E1. injection E1 as -> _.
  assert (HG : forall X (l : list X) i e, getz l i = Err e -> e = IndexError).
  { intros X l i e H. destruct (getz_pos l i) as [[_ H']|(a & x & b & _ & H')]; congruence. }
  assert (HSl : forall X (l : list X) sl e, sp_slice sl l = Err e -> e = ValueError /\ s_step sl = Some 0%Z).
  { intros X l sl e H. destruct (slice_cases sl l) as [[H1 H2]|(_ & x & H' & _)]; [|congruence]. split; congruence. }
  destruct o; cbn [ref_step fst snd ddocumented reply]; try exact I;
    try (match goal with |- context [lookup ?e ?k ?d] => destruct (lookup e k d) end; cbn; auto; fail).
  - destruct default, (lookup eqb k d); cbn; auto.
  - destruct d as [|q d]; [left; reflexivity|]. destruct (getz (listing ltb (q :: d)) i) eqn:Eg; cbn; eauto.
  - destruct (getz (listing ltb d) i) eqn:Eg; cbn; eauto.
  - destruct (getz (map fst (listing ltb d)) i) eqn:Eg; cbn; eauto.
  - destruct (getz (listing ltb d) i) eqn:Eg; cbn; eauto.
  - destruct (getz (map snd (listing ltb d)) i) eqn:Eg; cbn; eauto.
  - destruct (sp_slice sl (map fst (listing ltb d))) eqn:Eg; cbn; eauto.
  - destruct (sp_slice sl (listing ltb d)) eqn:Eg; cbn; eauto.
  - destruct (sp_slice sl (map snd (listing ltb d))) eqn:Eg; cbn; eauto.
  - destruct (getz (listing ltb d) i) eqn:Eg; cbn; eauto.
  - destruct (sp_slice sl (listing ltb d)) eqn:Eg; cbn; eauto.
  - destruct (fst (fref f (map fst (listing ltb d)))) as [| | | | |e] eqn:Ef; try (destruct f; exact I).
    destruct HC as [ltb eqb dflt HT Hd|key kltb keqb eqb dflt HT HE HEC Hd].
    + destruct f; try exact (sp_documented _ _ _ _ _ _ Ef); cbn in Ef; injection Ef as <-; (split; [|reflexivity]).
      * exists (FBisectKeyLeft k), []. reflexivity.
      * exists (FBisectKeyRight k), []. reflexivity.
      * exists (FIRangeKey mn mx imin imax reverse), []. reflexivity.
    + destruct f; try exact (sp_documented _ _ _ _ _ _ Ef); discriminate Ef.
Qed.
Lemma ddocumented_mono {A B K} (P Q : Prop) (o : dop A B K) r : (P -> Q) -> ddocumented P o r -> ddocumented Q o r.
Proof. intros H. destruct o, r; cbn; auto. destruct f, r; cbn; tauto. Qed.
Lemma c54_dict_plain : forall A B K (ltb eqb : A -> A -> bool) (veqb : B -> B -> bool) dflt s o r s',
  let T := plain (K:=K) (total2 ltb) (total2 eqb) dflt in
  TotalOrder ltb eqb -> 1 <= dflt -> sd_reach T eqb veqb s -> dop_ok eqb o ->
  sd_step T eqb veqb o s = (r, s') -> ddocumented True o r.
Proof.
  intros A B K ltb eqb veqb dflt s o r s' T HT Hd HR Ho E.
  eapply ddocumented_mono; [|eapply (dict_doc _ A B K T ltb eqb veqb (fwd_plain ltb eqb) dflt); eauto]; [auto|].
  apply class_plain; assumption.
Qed.
Lemma c54_dict_keyed : forall A B K (key : A -> K) (kltb keqb : K -> K -> bool) (eqb : A -> A -> bool) (veqb : B -> B -> bool) dflt s o r s',
  let T := keyed (total2 eqb) (total2 kltb) (total2 keqb) (total1 key) dflt in
  TotalOrder kltb keqb -> Equiv eqb -> EqCompat (by_key key kltb) eqb -> 1 <= dflt ->
  sd_reach T eqb veqb s -> dop_ok eqb o ->
  sd_step T eqb veqb o s = (r, s') -> ddocumented False o r.
Proof.
  intros A B K key kltb keqb eqb veqb dflt s o r s' T HT HE HC Hd HR Ho E.
  eapply ddocumented_mono; [|eapply (dict_doc _ A B K T _ eqb veqb (fwd_keyed key kltb eqb) dflt); eauto].
  - intros (f & l & Hf). destruct f; try discriminate Hf;
      pose proof (sp_documented _ _ _ _ _ _ Hf) as Hg; first [exact Hg|discriminate Hg].
  - eapply class_keyed; eassumption.
Qed.

(** ** C57 *)
Lemma c57_dict_check : forall S A B K (T : listcls S A K) ltb eqb (veqb : B -> B -> bool) fref dflt a s0 ops,
  list_class T ltb eqb fref dflt -> 4 <= dflt -> Forall (dop_ok eqb) ops -> Forall (dresets_from 4) ops ->
  sd_new T eqb a = Ok s0 ->
  let s := snd (sd_run T eqb veqb ops s0) in sd_check T eqb s = (Ok tt, s).
Proof.
  intros S A B K T ltb eqb veqb fref dflt a s0 ops HC Hd HF H4 E0. cls HC HK.
  destruct (new_ok T ltb eqb fref dflt R ld HK a) as (s1 & E1 & _ & HI1 & Hl). rewrite E1 in E0. injection E0 as ->.
  destruct (sd_run_ok T ltb eqb veqb fref dflt R ld HK ops s0 HI1 HF) as (s' & E & _ & HI & HL). rewrite E.
  cbn. eapply sd_check_ok; eauto. rewrite HL, Hl. clear - Hd H4. assert (G : forall n, 4 <= n -> 4 <= fold_left (fun n o => dload (A:=A) (B:=B) (K:=K) dflt o n) ops n).
  { induction H4 as [|o ops Ho _ IH]; intros n Hn; [exact Hn|]. cbn. apply IH.
    destruct o; cbn in *; auto. destruct f; cbn in *; auto. }
  apply G, Hd.
Qed.

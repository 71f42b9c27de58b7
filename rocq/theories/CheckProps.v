(** * What the self checks establish (C64, C65) *)
From Coq Require Import Sorting.Permutation.
From Verif Require Import PyBase Model Spec History Reach BaseFacts SpecFacts HistFacts KeyProps ListClass ClassSpec ClassFacts
  ModelSet SetSpec HashFacts SetFacts ModelDict DictSpec MapFacts DictFacts CheckSpec CheckConv ConcreteCheck DictProps.
Local Unset Implicit Arguments.

(** ** C64 *)
Lemma c64_list : forall V (ltb eqb : V -> V -> bool) dflt c,
  TotalOrder ltb eqb -> Identity eqb -> 1 <= dflt ->
  sl_check (total2 ltb) (total2 eqb) c = Ok tt -> tree_row c ->
  exists l, shows c l /\ sorted ltb l /\
    forall ops, Forall lop_ok ops -> exists c',
      sl_run (total2 ltb) (total2 eqb) dflt ops c = (fst (sp_run ltb eqb ltb ops l), c') /\
      shows c' (snd (sp_run ltb eqb ltb ops l)).
Proof.
  intros V ltb eqb dflt c HT HI Hd H Hrow. pose proof (sl_check_conv ltb eqb HT HI c tt H Hrow) as HL.
  exists (contents c). split; [reflexivity|]. split; [apply HL|]. intros ops Hok.
  destruct (sl_run_ok ltb eqb HT dflt Hd ops c HL Hok) as (c' & E & _ & Ec & _).
  exists c'. split; [exact E|]. unfold shows. rewrite <- Ec. reflexivity.
Qed.

Lemma c64_keylist : forall V K (key : V -> K) (kltb keqb : K -> K -> bool) (vltb eqb : V -> V -> bool) dflt s,
  TotalOrder kltb keqb -> Identity keqb -> EqCompat (by_key key kltb) eqb -> 1 <= dflt ->
  skl_check (total2 kltb) (total2 keqb) (total1 key) s = Ok tt -> tree_row (kc s) ->
  exists l, kshows s l /\ sorted (by_key key kltb) l /\
    forall ops, Forall kop_ok ops -> Forall (comparable vltb eqb) ops -> exists s',
      skl_run (total2 vltb) (total2 eqb) (total2 kltb) (total2 keqb) (total1 key) dflt ops s
        = (fst (sp_krun eqb vltb key kltb ops l), s') /\
      kshows s' (snd (sp_krun eqb vltb key kltb ops l)).
Proof.
  intros V K key kltb keqb vltb eqb dflt s HT HI HE Hd H Hrow.
  pose proof (skl_check_conv key kltb keqb HT HI s tt H Hrow) as HL.
  exists (contents (kc s)). split; [reflexivity|]. split; [apply HL|]. intros ops Hok Hc.
  destruct (skl_run_ok key kltb keqb vltb eqb HT HE dflt Hd ops s HL Hok) as (s' & E & _ & Ec & _).
  { eapply Forall_impl; [|exact Hc]. apply comparable_ok. }
  exists s'. split; [exact E|]. apply kshows_iff. exact Ec.
Qed.

Lemma c64_refuted : exists (c : core nat nat) l i,
  sl_check (total2 Nat.ltb) (total2 Nat.eqb) c = Ok tt /\ shows c l /\ sorted Nat.ltb l /\
  fst (getitem_int i c) <> getz l i.
Proof.
  exists ck_bad, [1; 2; 3; 4; 5; 6; 7], 2%Z.
  split; [reflexivity|]. split; [reflexivity|]. split; [exact ck_bad_sorted|]. vm_compute. congruence.
Qed.

Lemma c64_key_refuted : exists (s : skl nat nat) l i,
  skl_check (total2 Nat.ltb) (total2 Nat.eqb) (total1 (fun v => v)) s = Ok tt /\ kshows s l /\ sorted Nat.ltb l /\
  fst (getitem_int i (kc s)) <> getz l i.
Proof.
  exists (mkskl ck_bad (lists ck_bad)), [1; 2; 3; 4; 5; 6; 7], 2%Z.
  split; [reflexivity|]. split; [reflexivity|]. split; [exact ck_bad_sorted|]. vm_compute. congruence.
Qed.

(** ** C65 *)
Lemma identity_equiv {A} (eqb : A -> A -> bool) : Identity eqb -> Equiv eqb.
Proof.
  intros H. split.
  - intros x. apply H. reflexivity.
  - intros x y E. apply H in E. apply H. congruence.
  - intros x y z E1 E2. apply H in E1, E2. apply H. congruence.
Qed.
Lemma identity_compat {A K} (key : A -> K) kltb keqb eqb : TotalOrder kltb keqb -> Identity eqb -> EqCompat (by_key key kltb) eqb.
Proof. intros HT H x y E. apply H in E. subst y. unfold by_key. split; apply (swo_irrefl (to_swo HT)). Qed.
Lemma distinct_nodup {A} (eqb : A -> A -> bool) (l : list A) : Identity eqb -> distinct eqb l -> NoDup l.
Proof.
  intros HI. induction l as [|x l IH]; cbn; [constructor|]. intros [H1 H2]. constructor; [|apply IH, H2].
  intros Hin. apply H1 in Hin. assert (eqb x x = true) by (apply HI; reflexivity). congruence.
Qed.

Section Check.
  Context {S V K : Type}.
  Variable T : listcls S V K.
  Variables ltb eqb : V -> V -> bool.
  Variable fref : fwd V K -> list V -> out V * list V.
  Variable dflt : nat.
  Variable R : S -> list V -> Prop.
  Variable ld : S -> nat.
  Hypothesis HK : ClsOK T ltb eqb fref dflt R ld.
  Hypothesis HI : Identity eqb.

  Lemma ss_check_conv (s : sset S V) l : R (s_list s) l -> fst (ss_check T eqb s) = Ok tt ->
    distinct eqb (s_set s) -> distinct eqb l -> SInv eqb R s l.
  Proof.
    intros HR H HD HL. split; [exact HR|]. split; [exact HD|].
    unfold ss_check, bind, get, onlist, zoom, liftr in H.
    destruct (l_check T (s_list s)); [|discriminate].
    rewrite (k_len _ _ _ _ _ _ _ HK _ _ HR) in H. cbn [s_list s_set s_tick] in H.
    destruct (length (s_set s) =? length l) eqn:En; [|discriminate]. apply Nat.eqb_eq in En.
    cbn [assertR s_list s_set s_tick] in H. rewrite (k_iter _ _ _ _ _ _ _ HK _ _ HR) in H. cbn [s_list s_set s_tick] in H.
    destruct (forallb _ l) eqn:EF; [|discriminate]. rewrite forallb_forall in EF.
    symmetry. apply NoDup_Permutation_bis; [apply (distinct_nodup eqb); assumption|lia|].
    intros x Hx. apply EF in Hx. unfold set_mem in Hx. apply existsb_exists in Hx as (y & Hy & Exy). apply HI in Exy. subst y. exact Hy.
  Qed.

  Context {B : Type}.
  Lemma sd_check_conv (s : sdict S V B) l : R (d_list s) l -> fst (sd_check T eqb s) = Ok tt ->
    distinct_keys eqb (d_items s) -> distinct eqb l -> (forall x y, tie ltb x y = true -> x = y) ->
    DInv ltb eqb R s.
  Proof.
    intros HR H HD HL HTie. split; [|exact HD].
    unfold sd_check, bind, get, onkeys, zoom, liftr in H.
    destruct (l_check T (d_list s)); [|discriminate].
    rewrite (k_len _ _ _ _ _ _ _ HK _ _ HR) in H. cbn [d_list d_items] in H.
    destruct (length (d_items s) =? length l) eqn:En; [|discriminate]. apply Nat.eqb_eq in En.
    cbn [assertR d_list d_items] in H. rewrite (k_iter _ _ _ _ _ _ _ HK _ _ HR) in H. cbn [d_list d_items] in H.
    destruct (forallb _ l) eqn:EF; [|discriminate]. rewrite forallb_forall in EF.
    pose proof (k_swo _ _ _ _ _ _ _ HK) as HW.
    assert (HP : Permutation l (map fst (d_items s))).
    { apply NoDup_Permutation_bis; [apply (distinct_nodup eqb); assumption|rewrite map_length; lia|].
      intros x Hx. apply EF in Hx. unfold d_mem in Hx. apply existsb_exists in Hx as (y & Hy & Exy).
      apply HI in Exy. subst x. apply in_map, Hy. }
    replace (map fst (listing ltb (d_items s))) with l; [exact HR|].
    apply (sorted_ties_unique ltb HW); [eapply k_sorted; eauto|apply listing_sorted; assumption|].
    intros x.
    assert (HP2 : Permutation l (map fst (listing ltb (d_items s)))).
    { rewrite HP. apply Permutation_map. symmetry. apply listing_perm. exact HW. }
    assert (HR' : forall m, filter (tie ltb x) m = repeat x (length (filter (tie ltb x) m))).
    { intros m. apply Forall_eq_repeat. apply Forall_forall. intros y Hy. apply filter_In in Hy as [_ Hy]. apply HTie. exact Hy. }
    rewrite (HR' l), (HR' (map fst _)). f_equal. apply Permutation_length. apply filter_perm. exact HP2.
  Qed.
End Check.

Lemma c65_set : forall V K (ltb eqb : V -> V -> bool) dflt ord (s : sset (core V V) V) l,
  TotalOrder ltb eqb -> Identity eqb -> 1 <= dflt -> any_order ord ->
  let T := plain (K:=K) (total2 ltb) (total2 eqb) dflt in
  fst (ss_check T eqb s) = Ok tt -> tree_row (s_list s) -> distinct eqb (s_set s) ->
  ss_shows T s l -> distinct eqb l ->
  forall ops, Forall sop_ok ops -> exists rs s' l',
    ss_run T eqb ord ops s = (rs, s') /\ set_history ltb eqb (fwd_plain ltb eqb) ops l rs l' /\ ss_shows T s' l'.
Proof.
  intros V K ltb eqb dflt ord s l HT HI Hd HO T H Hrow HD HS HL ops Hok.
  pose proof (plain_ok (K:=K) ltb eqb HT dflt Hd) as HK. fold T in HK.
  assert (Hc : sl_check (total2 ltb) (total2 eqb) (s_list s) = Ok tt).
  { unfold ss_check, bind, get, liftr in H. cbn [l_check T plain] in H.
    destruct (sl_check (total2 ltb) (total2 eqb) (s_list s)) as [[]|]; [reflexivity|discriminate]. }
  assert (HP : PR ltb (s_list s) l).
  { split; [apply (sl_check_conv ltb eqb HT HI _ tt Hc Hrow)|]. change ((Ok (contents (s_list s)), mksset (s_set s) (s_list s) (s_tick s)) = (Ok l, s)) in HS. apply (f_equal fst) in HS. apply Ok_inj in HS. exact HS. }
  pose proof (ss_check_conv T ltb eqb _ dflt _ _ HK HI s l HP H HD HL) as HInv.
  destruct (ss_run_ok T ltb eqb _ dflt _ _ HK ord HO ops s l HInv Hok) as (rs & s' & l' & E & Hh & HI' & _).
  exists rs, s', l'. split; [exact E|]. split; [exact Hh|]. apply (ss_inv_shows T ltb eqb _ dflt _ _ HK). exact HI'.
Qed.

Lemma c65_keyset : forall V K (key : V -> K) (kltb keqb : K -> K -> bool) (eqb : V -> V -> bool) dflt ord (s : sset (skl V K) V) l,
  TotalOrder kltb keqb -> Identity keqb -> Identity eqb -> 1 <= dflt -> any_order ord ->
  let T := keyed (total2 eqb) (total2 kltb) (total2 keqb) (total1 key) dflt in
  fst (ss_check T eqb s) = Ok tt -> tree_row (kc (s_list s)) -> distinct eqb (s_set s) ->
  ss_shows T s l -> distinct eqb l ->
  forall ops, Forall sop_ok ops -> exists rs s' l',
    ss_run T eqb ord ops s = (rs, s') /\
    set_history (by_key key kltb) eqb (fwd_keyed key kltb eqb) ops l rs l' /\ ss_shows T s' l'.
Proof.
  intros V K key kltb keqb eqb dflt ord s l HT HIk HI Hd HO T H Hrow HD HS HL ops Hok.
  pose proof (keyed_ok key kltb keqb eqb HT (identity_equiv eqb HI) (identity_compat key kltb keqb eqb HT HI) dflt Hd) as HK. fold T in HK.
  assert (Hc : skl_check (total2 kltb) (total2 keqb) (total1 key) (s_list s) = Ok tt).
  { unfold ss_check, bind, get, liftr in H. cbn [l_check T keyed] in H.
    destruct (skl_check (total2 kltb) (total2 keqb) (total1 key) (s_list s)) as [[]|]; [reflexivity|discriminate]. }
  assert (HP : KR key kltb (s_list s) l).
  { split; [apply (skl_check_conv key kltb keqb HT HIk _ tt Hc Hrow)|]. apply (f_equal fst) in HS. change (Ok (contents (kc (s_list s))) = Ok l) in HS. apply Ok_inj in HS. exact HS. }
  pose proof (ss_check_conv T _ eqb _ dflt _ _ HK HI s l HP H HD HL) as HInv.
  destruct (ss_run_ok T _ eqb _ dflt _ _ HK ord HO ops s l HInv Hok) as (rs & s' & l' & E & Hh & HI' & _).
  exists rs, s', l'. split; [exact E|]. split; [exact Hh|]. apply (ss_inv_shows T _ eqb _ dflt _ _ HK). exact HI'.
Qed.

Lemma c65_dict : forall A B K (ltb eqb : A -> A -> bool) (veqb : B -> B -> bool) dflt (s : sdict (core A A) A B) ks,
  TotalOrder ltb eqb -> Identity eqb -> 1 <= dflt ->
  let T := plain (K:=K) (total2 ltb) (total2 eqb) dflt in
  fst (sd_check T eqb s) = Ok tt -> tree_row (d_list s) -> distinct_keys eqb (d_items s) ->
  shows (d_list s) ks -> distinct eqb ks ->
  map fst (listing ltb (d_items s)) = ks /\
  forall ops, Forall (dop_ok eqb) ops -> exists s',
    sd_run T eqb veqb ops s = (fst (ref_run ltb eqb veqb (fwd_plain ltb eqb) ops (d_items s)), s') /\
    sd_shows T eqb s' (listing ltb (snd (ref_run ltb eqb veqb (fwd_plain ltb eqb) ops (d_items s)))).
Proof.
  intros A B K ltb eqb veqb dflt s ks HT HI Hd T H Hrow HD HS HL.
  pose proof (plain_ok (K:=K) ltb eqb HT dflt Hd) as HK. fold T in HK.
  assert (Hc : sl_check (total2 ltb) (total2 eqb) (d_list s) = Ok tt).
  { unfold sd_check, bind, get, liftr in H. cbn [l_check T plain] in H.
    destruct (sl_check (total2 ltb) (total2 eqb) (d_list s)) as [[]|]; [reflexivity|discriminate]. }
  assert (HP : PR ltb (d_list s) ks).
  { split; [apply (sl_check_conv ltb eqb HT HI _ tt Hc Hrow)|]. apply (f_equal fst) in HS. apply Ok_inj in HS. exact HS. }
  assert (HInv : DInv ltb eqb (PR ltb) s).
  { apply (sd_check_conv T ltb eqb _ dflt _ _ HK HI s ks HP H HD HL).
    intros x y Hxy. apply HI. rewrite (to_eq HT). exact Hxy. }
  split; [destruct HInv as [[_ E] _]; destruct HP as [_ E']; congruence|]. intros ops Hok.
  destruct (sd_run_ok T ltb eqb veqb _ dflt _ _ HK ops s HInv Hok) as (s' & E & Ed & HI' & _).
  exists s'. split; [exact E|]. rewrite <- Ed. apply (sd_shows_ok T ltb eqb _ dflt _ _ HK). exact HI'.
Qed.

Lemma c65_keydict : forall A B K (key : A -> K) (kltb keqb : K -> K -> bool) (eqb : A -> A -> bool) (veqb : B -> B -> bool) dflt
  (s : sdict (skl A K) A B) ks,
  TotalOrder kltb keqb -> Identity keqb -> Identity eqb -> (forall x y, key x = key y -> x = y) -> 1 <= dflt ->
  let T := keyed (total2 eqb) (total2 kltb) (total2 keqb) (total1 key) dflt in
  fst (sd_check T eqb s) = Ok tt -> tree_row (kc (d_list s)) -> distinct_keys eqb (d_items s) ->
  kshows (d_list s) ks -> distinct eqb ks ->
  map fst (listing (by_key key kltb) (d_items s)) = ks /\
  forall ops, Forall (dop_ok eqb) ops -> exists s',
    sd_run T eqb veqb ops s
      = (fst (ref_run (by_key key kltb) eqb veqb (fwd_keyed key kltb eqb) ops (d_items s)), s') /\
    sd_shows T eqb s'
      (listing (by_key key kltb) (snd (ref_run (by_key key kltb) eqb veqb (fwd_keyed key kltb eqb) ops (d_items s)))).
Proof.
  intros A B K key kltb keqb eqb veqb dflt s ks HT HIk HI Hinj Hd T H Hrow HD HS HL.
  pose proof (keyed_ok key kltb keqb eqb HT (identity_equiv eqb HI) (identity_compat key kltb keqb eqb HT HI) dflt Hd) as HK. fold T in HK.
  assert (Hc : skl_check (total2 kltb) (total2 keqb) (total1 key) (d_list s) = Ok tt).
  { unfold sd_check, bind, get, liftr in H. cbn [l_check T keyed] in H.
    destruct (skl_check (total2 kltb) (total2 keqb) (total1 key) (d_list s)) as [[]|]; [reflexivity|discriminate]. }
  assert (HP : KR key kltb (d_list s) ks).
  { split; [apply (skl_check_conv key kltb keqb HT HIk _ tt Hc Hrow)|]. apply (f_equal fst) in HS. apply Ok_inj in HS. exact HS. }
  assert (HInv : DInv (by_key key kltb) eqb (KR key kltb) s).
  { apply (sd_check_conv T _ eqb _ dflt _ _ HK HI s ks HP H HD HL).
    intros x y Hxy. apply Hinj, HIk. rewrite (to_eq HT). exact Hxy. }
  split; [destruct HInv as [[_ E] _]; destruct HP as [_ E']; congruence|]. intros ops Hok.
  destruct (sd_run_ok T _ eqb veqb _ dflt _ _ HK ops s HInv Hok) as (s' & E & Ed & HI' & _).
  exists s'. split; [exact E|]. rewrite <- Ed. apply (sd_shows_ok T _ eqb _ dflt _ _ HK). exact HI'.
Qed.

Lemma c65_set_refuted : exists (s : sset (core nat nat) nat) l v,
  fst (ss_check ckT Nat.eqb s) = Ok tt /\ tree_row (s_list s) /\ distinct Nat.eqb (s_set s) /\
  ss_shows ckT s l /\ fst (ss_contains Nat.eqb v s) = Ok true /\ ~ In v l.
Proof.
  exists ck_set, [1; 1], 2. split; [reflexivity|]. split; [left; reflexivity|].
  split; [cbn; intuition (subst; reflexivity)|]. split; [reflexivity|]. split; [reflexivity|].
  intros [?|[?|[]]]; discriminate.
Qed.

Lemma c65_dict_refuted : exists (s : sdict (core nat nat) nat nat) l k v,
  fst (sd_check ckT Nat.eqb s) = Ok tt /\ tree_row (d_list s) /\ distinct_keys Nat.eqb (d_items s) /\
  sd_shows ckT Nat.eqb s l /\ fst (sd_getitem Nat.eqb k s) = Ok v /\ ~ In (k, v) l.
Proof.
  exists ck_dict, [(1, 10); (1, 10)], 2, 20. split; [reflexivity|]. split; [left; reflexivity|].
  split; [cbn; intuition (subst; reflexivity)|]. split; [reflexivity|]. split; [reflexivity|].
  intros [?|[?|[]]]; discriminate.
Qed.

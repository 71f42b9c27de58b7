(** * Statements about [|] between a SortedDict and other mappings *)
From Verif Require Import PyBase Model Spec SpecFacts History Reach Concrete ConcreteCompare ListClass ClassSpec ClassFacts ModelSet SetSpec ModelDict DictSpec MapFacts DictFacts DictProps ModelDictOps DictOpsSpec.
Local Unset Implicit Arguments.

Section Dicts.
  Context {A B : Type}.
  Variable eqb : A -> A -> bool.
  Hypothesis HE : Equiv eqb.
  Notation map_t := (list (A * B)).

  Lemma update_maps (d ps : map_t) k w : distinct_keys eqb d -> maps eqb (d_update eqb d ps) k w <-> overwritten eqb d ps k w.
  Proof.
    intros HD. rewrite (d_update_merge eqb). unfold overwritten.
    rewrite <- (lookup_In eqb HE) by (apply merge_dk; exact HD). rewrite <- (lookup_In eqb HE _ _ d) by exact HD.
    rewrite last_says_lookup, <- unsaid, (lookup_merge eqb HE). destruct (lookup eqb k (rev ps)).
    - split; [auto|]. intros [H|[H _]]; congruence.
    - split; [auto|]. intros [H|[_ H]]; congruence.
  Qed.
  Lemma update_distinct (d ps : map_t) : distinct_keys eqb d -> distinct_keys eqb (d_update eqb d ps).
  Proof. intros HD. rewrite (d_update_merge eqb). apply merge_dk, HD. Qed.
  Lemma unsaid_key (m : map_t) k : (forall p, In p m -> eqb (fst p) k = false) <-> ~ has_key eqb m k.
  Proof.
    split.
    - intros H (v & k' & Hin & E). specialize (H _ Hin). cbn in H. congruence.
    - intros H [k' v] Hin. destruct (eqb k' k) eqn:E; [|exact E]. exfalso. apply H. exists v, k'. auto.
  Qed.
  Lemma overwritten_distinct (l m : map_t) k w : distinct_keys eqb m ->
    overwritten eqb l m k w <-> maps eqb m k w \/ (~ has_key eqb m k /\ maps eqb l k w).
  Proof. intros H. unfold overwritten. rewrite (last_says_distinct eqb HE m k w H), unsaid_key. reflexivity. Qed.
End Dicts.

Section Or.
  Context {S S' A B K K' : Type}.
  Variable T : listcls S A K.
  Variable T' : listcls S' A K'.
  Variables ltb ltb' eqb : A -> A -> bool.
  Variable veqb : B -> B -> bool.
  Variable fref : fwd A K -> list A -> out A * list A.
  Variable fref' : fwd A K' -> list A -> out A * list A.
  Variables dflt dflt' : nat.
  Hypothesis HC : list_class T ltb eqb fref dflt.
  Hypothesis HC' : list_class T' ltb' eqb fref' dflt'.
  Let HE : Equiv eqb := class_eqv T ltb eqb fref dflt HC.
  Notation of := (is_mapping_of eqb veqb).
  Notation is_class := (is_dclass T T' ltb ltb' eqb veqb).

  Lemma of_distinct {S0 K0} (C : listcls S0 A K0) lt fr dl (x : mapping S0 A B) k l : list_class C lt eqb fr dl ->
    of C x k l -> is_mapping k = true -> distinct_keys eqb l.
  Proof.
    intros HC0 H Hk. destruct x as [d|j m]; cbn in H.
    - destruct H as (_ & HR & HS). destruct (shown C lt eqb veqb fr dl HC0 d l HR HS) as [-> HD].
      apply listing_dk; [exact (class_swo C lt eqb fr dl HC0)|exact (class_eqv C lt eqb fr dl HC0)|exact HD].
    - destruct H as (-> & -> & H). destruct j; try discriminate; try contradiction; exact H.
  Qed.
  Lemma of_items {S0 K0} (C : listcls S0 A K0) (x : mapping S0 A B) k l : of C x k l -> mitems C eqb x = Ok l /\ mkind_of x = k.
  Proof.
    destruct x as [d|j m]; cbn.
    - intros (-> & _ & HS). rewrite HS. auto.
    - intros (-> & -> & _). auto.
  Qed.
  Lemma ror_ok d l m : sd_reach T' eqb veqb d -> sd_shows T' eqb d m -> distinct_keys eqb l ->
    exists n l', sd_ror T' eqb l d = (Ok n, d) /\ is_sdict eqb veqb T' ltb' n (overwritten eqb l m) /\ sd_shows T' eqb n l'  /\
      distinct_keys eqb l' /\ forall k w, maps eqb l' k w <-> overwritten eqb l m k w.
  Proof.
    intros HR HS HD. destruct (c49_or S' A B K' T' ltb' eqb veqb fref' dflt' d m l HC' HR HS HD) as (_ & (n & l' & E & H1 & H2 & H3 & H4 & H5) & _).
    assert (HM : distinct_keys eqb m) by (apply (of_distinct T' ltb' fref' dflt' (PSorted d) YSorted m HC'); [split; [reflexivity|auto]|reflexivity]).
    assert (HX : forall k w, maps eqb l' k w <-> overwritten eqb l m k w).
    { intros k w. rewrite H5, (overwritten_distinct eqb HE) by exact HM. reflexivity. }
    exists n, l'. split; [exact E|]. split; [|split; [exact H2|split; [exact H4|exact HX]]].
    split; [exact H1|]. exists l'. split; [exact H2|]. split; [exact H3|]. split; [exact H4|exact HX].
  Qed.
  Lemma dict_or_ok d l m : sd_reach T' eqb veqb d -> sd_shows T' eqb d m -> distinct_keys eqb l ->
    exists n l', dict_or (S:=S) T' eqb l d = Ok (DRight n) /\ is_sdict eqb veqb T' ltb' n (overwritten eqb l m) /\ sd_shows T' eqb n l' /\
      distinct_keys eqb l' /\ forall k w, maps eqb l' k w <-> overwritten eqb l m k w.
  Proof.
    intros HR HS HD. destruct (ror_ok d l m HR HS HD) as (n & l' & E & H). exists n, l'. split; [|exact H].
    unfold dict_or, ask_ror. cbn [is_mapping rbind rmap]. rewrite E. reflexivity.
  Qed.
  Lemma or_ok x y j k l m : of T x j l -> of T' y k m -> j = YSorted \/ k = YSorted ->
    match or_class j k with
    | None => dbinop T T' eqb x y = Err TypeError
    | Some c => exists r, dbinop T T' eqb x y = Ok r /\ is_class c r (overwritten eqb l m)
    end.
  Proof.
    intros Hx Hy H1. destruct (of_items T' y k m Hy) as [Ey Ky].
    destruct x as [d|j' l'].
    - destruct Hx as (-> & HR & HS). unfold dbinop, ask_or. rewrite Ey, Ky. cbn [or_class].
      destruct (is_mapping k) eqn:Em; [|destruct k; try discriminate; reflexivity].
      assert (HM : distinct_keys eqb m) by (apply (of_distinct T' ltb' fref' dflt' y k m HC' Hy Em)).
      destruct (c49_or S A B K T ltb eqb veqb fref dflt d l m HC HR HS HM) as ((n & l2 & E & R1 & R2 & R3 & R4 & R5) & _).
      assert (HX : exists r, (let! ps := Ok m in rmap DLeft (fst (sd_or T eqb ps d))) = Ok r /\ is_class LikeX r (overwritten eqb l m)).
      { cbn [rbind]. rewrite E. exists (DLeft n). split; [reflexivity|]. cbn. split; [exact R1|]. exists l2. split; [exact R2|]. split; [exact R3|]. split; [exact R4|].
        intros a w. rewrite R5, (overwritten_distinct eqb HE) by exact HM. reflexivity. }
      destruct k; try discriminate; exact HX.
    - destruct Hx as (-> & -> & Hl). destruct H1 as [H1|H1]; subst; [contradiction|].
      destruct y as [d|k' m']; [|destruct Hy as (<- & _ & []) ]. destruct Hy as (_ & HR & HS).
      destruct j'; cbn [or_class dbinop py_or ask_ror is_mapping rbind]; try reflexivity; try contradiction.
      + destruct (dict_or_ok d l' m HR HS Hl) as (n & l2 & E & Hn & _). exists (DRight n). split; [exact E|exact Hn].
      + rewrite HS. eexists. split; [reflexivity|]. cbn. split; [reflexivity|]. split; [apply update_distinct, Hl|]. intros a w. apply update_maps; assumption.
      + rewrite HS. eexists. split; [reflexivity|]. cbn. split; [reflexivity|]. split; [apply update_distinct, Hl|]. intros a w. apply update_maps; assumption.
      + destruct (dict_or_ok d l' m HR HS Hl) as (n & l2 & E & Hn & _). exists (DRight n). split; [exact E|exact Hn].
      + destruct (dict_or_ok d l' m HR HS Hl) as (n & l2 & E & _ & Hs & Hd & Hm). rewrite E. cbn [rbind made_items]. rewrite Hs. cbn [fst rbind].
        eexists. split; [reflexivity|]. cbn. split; [reflexivity|]. split; [apply update_distinct; constructor|].
        intros a w. rewrite update_maps by (try exact HE; constructor). rewrite (overwritten_distinct eqb HE) by exact Hd. rewrite <- Hm.
        split; [intros [H|[_ (k' & [] & _)]]; exact H|auto].
      + destruct (ror_ok d l' m HR HS Hl) as (n & l2 & E & Hn & _). rewrite E. exists (DRight n). split; [reflexivity|exact Hn].
  Qed.
  Lemma ior_ok x y j k l m : of T x j l -> of T' y k m -> j = YSorted \/ k = YSorted ->
    match ior_class j k with
    | None => daugmented T T' eqb x y = Err TypeError
    | Some c => exists r, daugmented T T' eqb x y = Ok r /\ is_class c r (overwritten eqb l m)
    end.
  Proof.
    intros Hx Hy H1. destruct (of_items T' y k m Hy) as [Ey Ky].
    destruct x as [d|j' l'].
    - destruct Hx as (-> & HR & HS). unfold daugmented. rewrite Ey, Ky.
      assert (HU : forall a, pairs_of a = m -> exists r, (let (r, d') := sd_ior T eqb a d in let! _ := r in Ok (DLeft d')) = Ok r /\ is_class LikeX r (overwritten eqb l m)).
      { intros a Ha. destruct (c47_update S A B K T ltb eqb veqb fref dflt d l a HC HR HS) as (s' & l2 & E & R1 & R2 & R3 & R4 & R5).
        cbn [sd_step] in E. unfold sd_ior. unfold dsee in E. destruct (sd_update T eqb a d) as [[u|e] d']; [|discriminate]. injection E as ->.
        exists (DLeft s'). split; [reflexivity|]. cbn. split; [exact R1|]. exists l2. split; [exact R2|]. split; [exact R3|]. split; [exact R4|]. rewrite <- Ha. exact R5. }
      destruct k; cbn [ior_class rbind]; try reflexivity; first [apply (HU (ADict m)); reflexivity|apply (HU (APairs m)); reflexivity].
    - pose proof (or_ok (PPy j' l') y j k l m Hx Hy H1) as HO. destruct Hx as (-> & -> & Hl). destruct H1 as [H1|H1]; subst; [contradiction|].
      destruct y as [d|k' m']; [|destruct Hy as (<- & _ & []) ]. destruct Hy as (_ & HR & HS).
      assert (HU : forall c, distinct_keys eqb l' -> exists r : dmade (S:=S) (S':=S'), (let! ps := fst (sd_items T' eqb d) in Ok (DPy c (d_update eqb l' ps))) = Ok r /\ is_class (Other c) r (overwritten eqb l' m)).
      { intros c Hd. rewrite HS. eexists. split; [reflexivity|]. cbn. split; [reflexivity|]. split; [apply update_distinct, Hd|]. intros a w. apply update_maps; assumption. }
      destruct j'; cbn [ior_class daugmented]; try reflexivity; try contradiction; first [apply HU; exact Hl|exact HO].
  Qed.
End Or.

Lemma c101_or : forall S S' A B K K' (T : listcls S A K) (T' : listcls S' A K') ltb ltb' eqb (veqb : B -> B -> bool) fref fref' dflt dflt' x y j k l m,
  list_class T ltb eqb fref dflt -> list_class T' ltb' eqb fref' dflt' ->
  is_mapping_of eqb veqb T x j l -> is_mapping_of eqb veqb T' y k m -> j = YSorted \/ k = YSorted ->
  match or_class j k with
  | None => dbinop T T' eqb x y = Err TypeError
  | Some c => exists r, dbinop T T' eqb x y = Ok r /\ is_dclass T T' ltb ltb' eqb veqb c r (overwritten eqb l m)
  end.
Proof. intros. eapply or_ok; eauto. Qed.
Lemma c101_in_place : forall S S' A B K K' (T : listcls S A K) (T' : listcls S' A K') ltb ltb' eqb (veqb : B -> B -> bool) fref fref' dflt dflt' x y j k l m,
  list_class T ltb eqb fref dflt -> list_class T' ltb' eqb fref' dflt' ->
  is_mapping_of eqb veqb T x j l -> is_mapping_of eqb veqb T' y k m -> j = YSorted \/ k = YSorted ->
  match ior_class j k with
  | None => daugmented T T' eqb x y = Err TypeError
  | Some c => exists r, daugmented T T' eqb x y = Ok r /\ is_dclass T T' ltb ltb' eqb veqb c r (overwritten eqb l m)
  end.
Proof. intros. eapply ior_ok; eauto. Qed.

(** The class [dT] sorts by the last digit, [nT] of ConcreteCompare.v has no key function. *)
Definition dT : listcls (skl nat nat) nat nat := keyed (total2 Nat.eqb) (total2 Nat.ltb) (total2 Nat.eqb) (total1 last_digit) 2.
Lemma dT_class : list_class dT (by_key last_digit Nat.ltb) Nat.eqb (fwd_keyed last_digit Nat.ltb Nat.eqb) 2.
Proof. apply class_keyed; [apply nat_total|apply (to_equiv _ _ nat_total)|apply last_digit_compat|lia]. Qed.
Definition ddict (l : list (nat * nat)) : sdict (skl nat nat) nat nat := snd (sd_run dT Nat.eqb Nat.eqb [DUpdate (APairs l)] (mksd [] (skl_init 2))).
Lemma ddict_reach l : sd_reach dT Nat.eqb Nat.eqb (ddict l).
Proof. exists (APairs []), (mksd [] (skl_init 2)), [DUpdate (APairs l)]. split; [vm_compute; reflexivity|]. split; [repeat constructor|reflexivity]. Qed.
(** Class and items of the result, for examples. *)
Definition seen_made {S S'} (C : listcls S nat nat) (C' : listcls S' nat nat) (r : res (dmade (S:=S) (S':=S') (A:=nat) (B:=nat))) : res (dclass * list (nat * nat)) :=
  let! m := r in let! l := made_items C C' Nat.eqb m in Ok (class_of_made m, l).

Lemma c102_sorted_dict : ~ (forall S S' A B K K' (T : listcls S A K) (T' : listcls S' A K') ltb ltb' eqb (veqb : B -> B -> bool) fref fref' dflt dflt' x y j k l m r,
  list_class T ltb eqb fref dflt -> list_class T' ltb' eqb fref' dflt' ->
  is_mapping_of eqb veqb T x j l -> is_mapping_of eqb veqb T' y k m -> j = YSorted \/ k = YSorted ->
  dbinop T T' eqb x y = Ok r -> class_of_made r = LikeX \/ class_of_made r = LikeY).
Proof.
  intros H.
  assert (HX : is_mapping_of Nat.eqb Nat.eqb dT (PPy YOrdered [(5, 1)]) YOrdered [(5, 1)]) by (split; [reflexivity|]; split; [reflexivity|]; cbn; constructor; [intros ? []|constructor]).
  assert (HY : is_mapping_of Nat.eqb Nat.eqb dT (PSorted (ddict [(5, 2)])) YSorted [(5, 2)]) by (split; [reflexivity|]; split; [apply ddict_reach|vm_compute; reflexivity]).
  destruct (H _ _ _ _ _ _ dT dT _ _ Nat.eqb Nat.eqb _ _ 2 2 _ _ _ _ _ _ _ dT_class dT_class HX HY (or_intror Logic.eq_refl) Logic.eq_refl) as [E|E]; discriminate E.
Qed.
Lemma c102_in_place : ~ (forall S S' A B K K' (T : listcls S A K) (T' : listcls S' A K') ltb ltb' eqb (veqb : B -> B -> bool) fref fref' dflt dflt' x y j k l m r,
  list_class T ltb eqb fref dflt -> list_class T' ltb' eqb fref' dflt' ->
  is_mapping_of eqb veqb T x j l -> is_mapping_of eqb veqb T' y k m -> j = YSorted \/ k = YSorted ->
  dbinop T T' eqb x y = Ok r -> exists r', daugmented T T' eqb x y = Ok r' /\ class_of_made r' = class_of_made r).
Proof.
  intros H.
  assert (HX : is_mapping_of Nat.eqb Nat.eqb dT (PPy YDict [(5, 1)]) YDict [(5, 1)]) by (split; [reflexivity|]; split; [reflexivity|]; cbn; constructor; [intros ? []|constructor]).
  assert (HY : is_mapping_of Nat.eqb Nat.eqb dT (PSorted (ddict [(5, 2)])) YSorted [(5, 2)]) by (split; [reflexivity|]; split; [apply ddict_reach|vm_compute; reflexivity]).
  destruct (H _ _ _ _ _ _ dT dT _ _ Nat.eqb Nat.eqb _ _ 2 2 _ _ _ _ _ _ _ dT_class dT_class HX HY (or_intror Logic.eq_refl) Logic.eq_refl) as (r' & E & C).
  vm_compute in E. injection E as <-. discriminate C.
Qed.
Lemma c102_succeeds : ~ (forall S S' A B K K' (T : listcls S A K) (T' : listcls S' A K') ltb ltb' eqb (veqb : B -> B -> bool) fref fref' dflt dflt' x y j k l m r,
  list_class T ltb eqb fref dflt -> list_class T' ltb' eqb fref' dflt' ->
  is_mapping_of eqb veqb T x j l -> is_mapping_of eqb veqb T' y k m -> j = YSorted \/ k = YSorted ->
  daugmented T T' eqb x y = Ok r -> exists r', dbinop T T' eqb x y = Ok r').
Proof.
  intros H.
  assert (HX : is_mapping_of Nat.eqb Nat.eqb dT (PSorted (ddict [(5, 2)])) YSorted [(5, 2)]) by (split; [reflexivity|]; split; [apply ddict_reach|vm_compute; reflexivity]).
  assert (HY : is_mapping_of Nat.eqb Nat.eqb dT (PPy YPairs [(5, 1)]) YPairs [(5, 1)]) by (split; [reflexivity|]; split; [reflexivity|exact I]).
  destruct (H _ _ _ _ _ _ dT dT _ _ Nat.eqb Nat.eqb _ _ 2 2 _ _ _ _ _ _ _ dT_class dT_class HX HY (or_introl Logic.eq_refl) Logic.eq_refl) as (r' & E).
  discriminate E.
Qed.

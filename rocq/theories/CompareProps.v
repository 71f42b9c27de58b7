(** * Statements about comparison operators between objects of different classes *)
From Coq Require Import Permutation.
From Verif Require Import PyBase Model Spec SpecFacts History CoreFacts ListSim HistFacts Reach ListProps KeyProps ListClass ClassSpec ClassFacts ModelSet SetSpec HashFacts SetFacts SetProps
  ModelDict DictSpec MapFacts DictFacts DictProps ModelView ViewProps ModelHeap ModelMixed MixedProps ModelCompare CompareSpec ConcreteCompare.
Local Unset Implicit Arguments.

Section Compare.
  Context {S V K : Type}.
  Variable T : listcls S V K.
  Variable key : V -> K.
  Variables kltb keqb : K -> K -> bool.
  Variables vltb eqb ltb : V -> V -> bool.
  Variable fref : fwd V K -> list V -> out V * list V.
  Variable dflt : nat.
  Variable ord : nat -> list V -> list V.
  Hypothesis HC : list_class T ltb eqb fref dflt.
  Hypothesis HT : TotalOrder vltb eqb.
  Hypothesis HK : TotalOrder kltb keqb.
  Hypothesis HE : EqCompat (by_key key kltb) eqb.
  Hypothesis Hd : 1 <= dflt.
  Hypothesis HO : any_order ord.
  Notation operand := (operand (S:=S) (V:=V) (K:=K)).
  Notation den := (denotes T key kltb keqb vltb eqb dflt ord).
  Notation cmp := (sp_compare eqb vltb).
  Notation ans0 := (answer0 T (total2 vltb) (total2 eqb) eqb cmp).
  Notation ans := (answer T (total2 vltb) (total2 eqb) eqb cmp).
  Notation rich := (rich T (total2 vltb) (total2 eqb) eqb cmp).
  Notation means := (set_cmp_means eqb).

  Lemma den_seq x k l : den x k l -> seq_of T eqb x = if seq_like k then Some (Ok l) else None.
  Proof.
    destruct x; cbn [denotes seq_of]; try (intros [-> ->]; reflexivity); try (intros (-> & -> & _); reflexivity); try (intros ->; reflexivity);
      intros (-> & HR & HS); cbn [seq_like].
    - unfold shows in HS. rewrite HS. reflexivity.
    - unfold kshows, shows in HS. rewrite HS. reflexivity.
    - unfold ss_shows in HS. rewrite HS. reflexivity.
    - destruct HS as (m & HS & ->). destruct (shown T ltb eqb eqb fref dflt HC d m HR HS) as [-> _].
      destruct (sd_facts T ltb eqb eqb fref dflt HC d HR) as (_ & _ & _ & E & _). rewrite E. reflexivity.
    - destruct HS as (m & HS & ->). destruct (shown T ltb eqb eqb fref dflt HC d m HR HS) as [-> _].
      destruct (sd_facts T ltb eqb eqb fref dflt HC d HR) as (_ & _ & _ & _ & _ & E). rewrite E. reflexivity.
  Qed.
  Lemma den_set x k l : den x k l ->
    match set_members x with Some m => set_like k = true /\ Permutation m l /\ distinct eqb m | None => set_like k = false end.
  Proof.
    destruct x; cbn [denotes set_members]; try (intros [-> ->]; reflexivity); try (intros (-> & -> & H); auto); try (intros ->; reflexivity);
      try (intros (-> & HR & HS); cbn [set_like]; try reflexivity).
    - cls HC HK'. pose proof (ss_shows_ok T ltb eqb fref dflt R ld HK' ord HO s l HR HS) as (_ & HD & HP). auto.
    - destruct HS as (m & HS & ->). destruct (shown T ltb eqb eqb fref dflt HC d m HR HS) as [-> H].
      split; [reflexivity|]. split; [apply Permutation_map, Permutation_sym, listing_perm; exact (class_swo _ _ _ _ _ HC)|exact H].
  Qed.
  Lemma eqv : Equiv eqb.
  Proof. exact (class_equiv _ _ _ _ _ HC). Qed.
  Lemma means_perm op a a' b b' : Permutation a a' -> Permutation b b' -> means op a b <-> means op a' b'.
  Proof.
    intros Ha Hb. pose proof (subset_perm eqb _ _ _ _ Ha Hb) as H1. pose proof (subset_perm eqb _ _ _ _ Hb Ha) as H2.
    destruct op; cbn [set_cmp_means]; tauto.
  Qed.
  Lemma means_flip op a b : means (cmp_flip op) b a <-> means op a b.
  Proof. destruct op; cbn; tauto. Qed.

  Definition set_ok (o : option (res bool)) (P : Prop) : Prop := match o with Some (Ok b) => b = true <-> P | Some (Err _) => False | None => True end.
  Lemma set_ok_iff o P Q : (P <-> Q) -> set_ok o P -> set_ok o Q.
  Proof. destruct o as [[b|]|]; cbn; tauto. Qed.
  Lemma ans0_set op x y j k l m ml mm : den x j l -> den y k m -> set_members x = Some ml -> set_members y = Some mm ->
    set_ok (ans0 op x y) (means op ml mm).
  Proof.
    intros Hx Hy Ex Ey. pose proof (den_set x j l Hx) as Sx. pose proof (den_set y k m Hy) as Sy. rewrite Ex in Sx. rewrite Ey in Sy.
    destruct Sx as (_ & Px & Dx), Sy as (_ & Py & Dy).
    assert (B : set_ok (Some (Ok (set_cmp eqb op ml mm))) (means op ml mm)) by (apply (set_cmp_spec eqb eqv); assumption).
    destruct x; cbn [set_members] in Ex; try discriminate; injection Ex as Ex; subst ml; cbn [answer0]; try exact I.
    1,2,3: destruct y; cbn [set_members] in Ey; try discriminate; injection Ey as Ey; subst; try exact I; exact B.
    rewrite Ey. destruct Hx as (_ & HR & m' & HS & ->).
    destruct (c67_compare S V V K T ltb eqb eqb fref dflt d m' mm HC HR HS) as [_ X]. destruct (X Dy op) as (b & -> & Hb).
    cbn. rewrite Hb. apply means_perm; [|apply Permutation_refl]. apply Permutation_sym, Px.
  Qed.
  Lemma protocol_set (answer : cmpop -> operand -> operand -> option (res bool)) op same (x y : operand) P : subclass y x = false -> set_ok (answer op x y) P -> set_ok (answer (cmp_flip op) y x) P ->
    (answer op x y <> None \/ answer (cmp_flip op) y x <> None) -> exists b, protocol answer op same x y = Ok b /\ (b = true <-> P).
  Proof.
    intros Hs H1 H2 H3. unfold protocol. cbv zeta. rewrite Hs. destruct (answer op x y) as [[b|e]|]; cbn in H1; [|contradiction|].
    - exists b. auto.
    - destruct (answer (cmp_flip op) y x) as [[b|e]|]; cbn in H2; [exists b; auto|contradiction|destruct H3; congruence].
  Qed.
  (** A set and another [Set] that is no SortedSet. *)
  Lemma builtin_set op same ml y k m mm : distinct eqb ml -> den y k m -> set_members y = Some mm -> (match y with OSet _ => False | _ => True end) ->
    exists b, protocol ans0 op same (OPySet ml) y = Ok b /\ (b = true <-> means op ml mm).
  Proof.
    intros Hm Hy Ey Hn. assert (Hx : den (OPySet ml) KPySet ml) by (cbn; auto).
    apply protocol_set.
    - destruct y; reflexivity.
    - exact (ans0_set op _ y _ _ _ _ ml mm Hx Hy eq_refl Ey).
    - eapply set_ok_iff; [apply means_flip|]. exact (ans0_set (cmp_flip op) y _ _ _ _ _ mm ml Hy Hx Ey eq_refl).
    - destruct y; cbn [set_members] in Ey; try discriminate; try contradiction; cbn; try (left; congruence); right; congruence.
  Qed.
  Lemma ans_set op x y j k l m ml mm : den x j l -> den y k m -> set_members x = Some ml -> set_members y = Some mm ->
    set_ok (ans op x y) (means op ml mm).
  Proof.
    intros Hx Hy Ex Ey. pose proof (den_set x j l Hx) as Sx. pose proof (den_set y k m Hy) as Sy. rewrite Ex in Sx. rewrite Ey in Sy.
    destruct x; try exact (ans0_set op _ y _ _ _ _ ml mm Hx Hy Ex Ey). cbn [set_members] in Ex. injection Ex as Ex. subst ml.
    assert (G : forall z, set_members z = Some mm -> (match z with OSet _ => False | _ => True end) -> (exists k', den z k' m \/ den z k' mm) ->
      set_ok (Some (protocol ans0 op false (OPySet (s_set s)) z)) (means op (s_set s) mm)).
    { intros z Ez Hn (k' & [Hz|Hz]); destruct (builtin_set op false (s_set s) z _ _ mm (proj2 (proj2 Sx)) Hz Ez Hn) as (b & -> & Hb); exact Hb. }
    unfold answer. destruct y; try (rewrite Ey; apply (G _ Ey I); eauto; fail); cbn [set_members] in Ey; try discriminate.
    injection Ey as Ey. subst mm. apply (G (OPySet (s_set s0)) eq_refl I). exists KPySet. right. cbn. split; [reflexivity|]. split; [reflexivity|apply Sy].
  Qed.
  Lemma rich_set op same x y j k l m : den x j l -> den y k m -> set_like j = true -> set_like k = true ->
    exists b, rich op same x y = Ok b /\ (b = true <-> means op l m).
  Proof.
    intros Hx Hy Hj Hk. pose proof (den_set x j l Hx) as Sx. pose proof (den_set y k m Hy) as Sy.
    destruct (set_members x) as [ml|] eqn:Ex; [|congruence]. destruct (set_members y) as [mm|] eqn:Ey; [|congruence].
    assert (G : exists b, rich op same x y = Ok b /\ (b = true <-> means op ml mm)).
    { apply protocol_set.
      - destruct x; cbn [set_members] in Ex; try discriminate; destruct y; reflexivity.
      - exact (ans_set op x y j k l m ml mm Hx Hy Ex Ey).
      - eapply set_ok_iff; [apply means_flip|]. exact (ans_set (cmp_flip op) y x k j m l mm ml Hy Hx Ey Ex).
      - destruct x; cbn [set_members] in Ex; try discriminate; destruct y; cbn [set_members] in Ey; try discriminate; cbn;
          try (left; congruence); right; congruence. }
    destruct G as (b & E & Hb). exists b. split; [exact E|]. rewrite Hb. apply means_perm; [apply Sx|apply Sy].
  Qed.

  (** ** Sequences *)
  Definition seq_ok (o : option (res bool)) (v : bool) : Prop := match o with Some r => r = Ok v | None => True end.
  Lemma compare_sl op o c l : sl_reach vltb eqb dflt c -> shows c l -> fst (compare (total2 vltb) (total2 eqb) op o c) = Ok (cmp op l o).
  Proof.
    intros HR HS. apply shows_iff in HS. subst l. rewrite (compare_ok vltb eqb); [reflexivity| |intros; exact HT].
    apply co_len, lshape_core, (reach_inv vltb eqb dflt HT Hd c HR).
  Qed.
  Lemma compare_skl op o s l : skl_reach key kltb keqb vltb eqb dflt s -> kshows s l -> fst (compare (total2 vltb) (total2 eqb) op o (kc s)) = Ok (cmp op l o).
  Proof.
    intros HR HS. apply kshows_iff in HS. subst l. rewrite (compare_ok vltb eqb); [reflexivity| |intros; exact HT].
    destruct (kreach_inv key kltb keqb vltb eqb dflt HK HE Hd s HR) as [(rs & _ & E) _]. exact E.
  Qed.
  Lemma ans_seq op x y j k l m : den x j l -> den y k m -> seq_like j = true -> seq_like k = true ->
    set_like j && set_like k = false -> seq_ok (ans op x y) (cmp op l m).
  Proof.
    intros Hx Hy Hj Hk Hs. pose proof (den_seq y k m Hy) as Ey. rewrite Hk in Ey. pose proof (den_set y k m Hy) as Sy.
    destruct x; cbn [answer answer0].
    - destruct y; try exact I. destruct Hx as [_ ->], Hy as [_ ->]. reflexivity.
    - destruct y; try exact I. destruct Hx as [_ ->], Hy as [_ ->]. reflexivity.
    - destruct Hx as (-> & _). discriminate.
    - destruct Hx as (-> & _). discriminate.
    - destruct Hx as (-> & _). discriminate.
    - rewrite Ey. destruct Hx as (_ & HR & HS). cbn [seq_ok rbind]. apply compare_sl; assumption.
    - rewrite Ey. destruct Hx as (_ & HR & HS). cbn [seq_ok rbind]. apply compare_skl; assumption.
    - destruct Hx as (-> & _). cbn in Hs. destruct (set_members y) as [mm|] eqn:E; [destruct Sy as [Sy _]; congruence|]. destruct y; try exact I. discriminate.
    - destruct Hx as (-> & _). cbn in Hs. destruct (set_members y) as [mm|]; [destruct Sy as [Sy _]; congruence|exact I].
    - exact I.
    - exact I.
  Qed.
  Lemma ans_sorted op x y j k l m : den x j l -> den y k m -> sorted_list j = true -> seq_like k = true -> ans op x y <> None.
  Proof.
    intros Hx Hy Hj Hk. pose proof (den_seq y k m Hy) as Ey. rewrite Hk in Ey.
    destruct x; try (destruct Hx as [-> _]; discriminate); try (cbn in Hx; subst j; discriminate); cbn [answer answer0]; rewrite Ey; discriminate.
  Qed.
  Lemma protocol_seq (answer : cmpop -> operand -> operand -> option (res bool)) op same (x y : operand) v : seq_ok (answer op x y) v -> seq_ok (answer (cmp_flip op) y x) v ->
    (answer op x y <> None \/ answer (cmp_flip op) y x <> None) -> protocol answer op same x y = Ok v.
  Proof.
    intros H1 H2 H3. unfold protocol. cbv zeta. destruct (answer op x y) as [r|], (answer (cmp_flip op) y x) as [r'|]; cbn in *;
      destruct (subclass y x); try assumption; destruct H3; congruence.
  Qed.
  Lemma rich_seq op same x y j k l m : den x j l -> den y k m -> manner_of j k = AsSequences -> rich op same x y = Ok (cmp op l m).
  Proof.
    intros Hx Hy Hm. unfold manner_of in Hm. destruct (set_like j && set_like k) eqn:Hs; [discriminate|].
    assert (Hs' : set_like k && set_like j = false) by (rewrite andb_comm; exact Hs).
    destruct ((sorted_list j || sorted_list k) && seq_like j && seq_like k) eqn:E.
    - apply andb_prop in E as [E Hk]. apply andb_prop in E as [E Hj]. apply protocol_seq.
      + apply (ans_seq op x y j k); assumption.
      + rewrite <- (sp_compare_flip vltb eqb op l m HT). apply (ans_seq (cmp_flip op) y x k j); assumption.
      + apply orb_prop in E as [E|E]; [left; eapply ans_sorted; eassumption|right; eapply ans_sorted; eassumption].
    - destruct j, k; try discriminate; destruct x; try (destruct Hx as [Hx _]; discriminate); try discriminate;
        destruct y; try (destruct Hy as [Hy _]; discriminate); try discriminate; destruct Hx as [_ ->], Hy as [_ ->]; reflexivity.
  Qed.
  (** ** Nothing in common *)
  Lemma ans_none op x y j k l m : den x j l -> den y k m -> manner_of j k = NotAtAll -> ans op x y = None.
  Proof.
    intros Hx Hy Hm. pose proof (den_seq y k m Hy) as Ey. pose proof (den_set y k m Hy) as Sy.
    assert (Hj : forall j', j = j' -> j = j') by auto.
    destruct x; cbn [denotes] in Hx; first [destruct Hx as [-> _]|subst j]; cbn [answer answer0].
    - destruct y; try reflexivity. destruct Hy as [-> _]. discriminate.
    - destruct y; try reflexivity. destruct Hy as [-> _]. discriminate.
    - destruct y; try reflexivity; destruct Hy as [-> _]; discriminate.
    - destruct y; try reflexivity; destruct Hy as [-> _]; discriminate.
    - destruct y; try reflexivity; destruct Hy as [-> _]; discriminate.
    - rewrite Ey. destruct k; try reflexivity; discriminate.
    - rewrite Ey. destruct k; try reflexivity; discriminate.
    - destruct (set_members y) as [mm|] eqn:E; [destruct Sy as [Sy _]; unfold manner_of in Hm; rewrite Sy in Hm; discriminate|].
      destruct y; try reflexivity. discriminate.
    - destruct (set_members y) as [mm|] eqn:E; [destruct Sy as [Sy _]; unfold manner_of in Hm; rewrite Sy in Hm; discriminate|reflexivity].
    - reflexivity.
    - reflexivity.
  Qed.
  Lemma manner_sym j k : manner_of j k = manner_of k j.
  Proof. destruct j, k; reflexivity. Qed.
  Lemma rich_none op same x y j k l m : den x j l -> den y k m -> manner_of j k = NotAtAll ->
    rich op same x y = match op with Ceq => Ok same | Cne => Ok (negb same) | _ => Err TypeError end.
  Proof.
    intros Hx Hy Hm. unfold ModelCompare.rich, protocol. cbv zeta. rewrite (ans_none op x y j k l m Hx Hy Hm).
    rewrite manner_sym in Hm. rewrite (ans_none (cmp_flip op) y x k j m l Hy Hx Hm). destruct (subclass y x); reflexivity.
  Qed.
End Compare.

Lemma c89_meaning : forall S V K (T : listcls S V K) (key : V -> K) kltb keqb vltb eqb ltb fref dflt ord op same x y j k l m,
  list_class T ltb eqb fref dflt -> TotalOrder vltb eqb -> TotalOrder kltb keqb -> EqCompat (by_key key kltb) eqb -> 1 <= dflt -> any_order ord ->
  denotes T key kltb keqb vltb eqb dflt ord x j l -> denotes T key kltb keqb vltb eqb dflt ord y k m ->
  let r := rich T (total2 vltb) (total2 eqb) eqb (sp_compare eqb vltb) op same x y in
  match manner_of j k with
  | AsSets => exists b, r = Ok b /\ (b = true <-> set_cmp_means eqb op l m)
  | AsSequences => r = Ok (sp_compare eqb vltb op l m)
  | NotAtAll => r = match op with Ceq => Ok same | Cne => Ok (negb same) | _ => Err TypeError end
  end.
Proof.
  intros S V K T key kltb keqb vltb eqb ltb fref dflt ord op same x y j k l m HC HT HK HE Hd HO Hx Hy r.
  destruct (manner_of j k) eqn:E.
  - unfold manner_of in E. destruct (set_like j && set_like k) eqn:Es.
    + apply andb_prop in Es as [Hj Hk]. eapply rich_set; eassumption.
    + destruct ((sorted_list j || sorted_list k) && seq_like j && seq_like k); [discriminate|]. destruct j, k; discriminate.
  - eapply rich_seq; eassumption.
  - eapply rich_none; eassumption.
Qed.
Lemma c89_symmetric : forall S V K (T : listcls S V K) (key : V -> K) kltb keqb vltb eqb ltb fref dflt ord op same x y j k l m,
  list_class T ltb eqb fref dflt -> TotalOrder vltb eqb -> TotalOrder kltb keqb -> EqCompat (by_key key kltb) eqb -> 1 <= dflt -> any_order ord ->
  denotes T key kltb keqb vltb eqb dflt ord x j l -> denotes T key kltb keqb vltb eqb dflt ord y k m ->
  let do op x y := rich T (total2 vltb) (total2 eqb) eqb (sp_compare eqb vltb) op same x y in
  do op x y = do (cmp_flip op) y x /\ do Cne x y = (let! b := do Ceq x y in Ok (negb b)).
Proof.
  intros S V K T key kltb keqb vltb eqb ltb fref dflt ord op same x y j k l m HC HT HK HE Hd HO Hx Hy.
  assert (A : forall op, _) by (intros o; exact (c89_meaning S V K T key kltb keqb vltb eqb ltb fref dflt ord o same x y j k l m HC HT HK HE Hd HO Hx Hy)).
  assert (B : forall op, _) by (intros o; exact (c89_meaning S V K T key kltb keqb vltb eqb ltb fref dflt ord o same y x k j m l HC HT HK HE Hd HO Hy Hx)).
  cbv zeta in *. rewrite (manner_sym k j) in B. destruct (manner_of j k).
  - destruct (A op) as (b & -> & Hb), (B (cmp_flip op)) as (b' & -> & Hb'), (A Ceq) as (e & -> & He), (A Cne) as (n & -> & Hn). split.
    + f_equal. rewrite (means_flip eqb) in Hb'. destruct b, b'; try reflexivity; exfalso; intuition congruence.
    + cbn. f_equal. cbn in He, Hn. destruct e, n; try reflexivity; exfalso; intuition congruence.
  - rewrite !A, !B. rewrite sp_compare_flip by exact HT. split; reflexivity.
  - rewrite !A, !B. split; [destruct op; reflexivity|reflexivity].
Qed.

Section Trans.
  Context {V : Type}.
  Variables vltb eqb : V -> V -> bool.
  Hypothesis HE : Equiv eqb.
  Lemma sp_eq_trans l : forall m n, sp_eq eqb l m = true -> sp_eq eqb m n = true -> sp_eq eqb l n = true.
  Proof.
    induction l as [|x l IH]; intros [|y m] [|z n]; cbn; try discriminate; [reflexivity|]. rewrite !andb_true_iff. intros [H1 H2] [H3 H4].
    split; [eapply (eqv_trans HE); eassumption|eapply IH; eassumption].
  Qed.
End Trans.
Lemma c89_transitive : forall S V K (T : listcls S V K) (key : V -> K) kltb keqb vltb eqb ltb fref dflt ord x y z j k n lx ly lz,
  list_class T ltb eqb fref dflt -> TotalOrder vltb eqb -> TotalOrder kltb keqb -> EqCompat (by_key key kltb) eqb -> 1 <= dflt -> any_order ord ->
  denotes T key kltb keqb vltb eqb dflt ord x j lx -> denotes T key kltb keqb vltb eqb dflt ord y k ly -> denotes T key kltb keqb vltb eqb dflt ord z n lz ->
  manner_of j k = manner_of k n -> manner_of j k = manner_of j n -> manner_of j k <> NotAtAll ->
  let same x y := rich T (total2 vltb) (total2 eqb) eqb (sp_compare eqb vltb) Ceq false x y in
  same x y = Ok true -> same y z = Ok true -> same x z = Ok true.
Proof.
  intros S V K T key kltb keqb vltb eqb ltb fref dflt ord x y z j k n lx ly lz HC HT HK HE Hd HO Hx Hy Hz E1 E2 Hn.
  pose proof (class_equiv _ _ _ _ _ HC) as HQ.
  assert (A := c89_meaning S V K T key kltb keqb vltb eqb ltb fref dflt ord Ceq false x y j k lx ly HC HT HK HE Hd HO Hx Hy).
  assert (B := c89_meaning S V K T key kltb keqb vltb eqb ltb fref dflt ord Ceq false y z k n ly lz HC HT HK HE Hd HO Hy Hz).
  assert (C := c89_meaning S V K T key kltb keqb vltb eqb ltb fref dflt ord Ceq false x z j n lx lz HC HT HK HE Hd HO Hx Hz).
  cbv zeta in *. rewrite <- E1 in B. rewrite <- E2 in C. destruct (manner_of j k); [| |congruence].
  - destruct A as (a & -> & Ha), B as (b & -> & Hb), C as (c & -> & Hc). intros [= ->] [= ->]. cbn in Ha, Hb, Hc.
    destruct (proj1 Ha eq_refl) as [A1 A2], (proj1 Hb eq_refl) as [B1 B2].
    replace c with true; [reflexivity|]. symmetry. apply Hc. split; intros v Hv; auto.
  - rewrite A, B, C. cbn. intros [= H1] [= H2]. f_equal. eapply sp_eq_trans; eassumption.
Qed.

Lemma c90_transitive : ~ (forall S V K (T : listcls S V K) (key : V -> K) kltb keqb vltb eqb ltb fref dflt ord x y z j k n lx ly lz,
  list_class T ltb eqb fref dflt -> TotalOrder vltb eqb -> TotalOrder kltb keqb -> EqCompat (by_key key kltb) eqb -> 1 <= dflt -> any_order ord ->
  denotes T key kltb keqb vltb eqb dflt ord x j lx -> denotes T key kltb keqb vltb eqb dflt ord y k ly -> denotes T key kltb keqb vltb eqb dflt ord z n lz ->
  let same x y := rich T (total2 vltb) (total2 eqb) eqb (sp_compare eqb vltb) Ceq false x y in
  same x y = Ok true -> same y z = Ok true -> same x z = Ok true).
Proof.
  intros H. specialize (H (core nat nat) nat nat nT last_digit Nat.ltb Nat.eqb Nat.ltb Nat.eqb Nat.ltb (fwd_plain Nat.ltb Nat.eqb) 2 back
    (OSet (nset [1])) (OSorted (nlist [1])) (OPyList [1]) KSortedSet KSorted KPyList [1] [1] [1]).
  cbv zeta in H. destruct nhyps_ok as (H1 & H2 & H3 & H4). assert (E : ncmp Ceq false (OSet (nset [1])) (OPyList [1]) = Ok true).
  - apply H; try assumption; [lia| | | | |].
    + split; [reflexivity|]. split; [apply nset_reach|vm_compute; reflexivity].
    + split; [reflexivity|]. split; [apply nlist_reach|vm_compute; reflexivity].
    + split; reflexivity.
    + vm_compute. reflexivity.
    + vm_compute. reflexivity.
  - vm_compute in E. discriminate.
Qed.

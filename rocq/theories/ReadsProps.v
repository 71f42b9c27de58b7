(** * Lemmas: comparisons that read the list *)
From Coq Require Import Lia.
From Verif Require Import PyBase Model Spec History BaseFacts SpecFacts Reach CoreFacts ListSim ListFacts HistFacts ListProps FaultFacts FaultHist VtFacts OrderFacts Concrete ConcreteCompare ModelReads ReadsSpec.
Local Unset Implicit Arguments.

Section Reads.
  Context {V : Type}.
  Notation SL := (core V V).
  Variables ltb eqb : V -> V -> bool.
  Variable dflt : nat.
  Hypothesis HT : TotalOrder ltb eqb.
  Hypothesis Hd : 1 <= dflt.
  Notation reach := (sl_reach ltb eqb dflt).
  Notation qrun qs c := (snd (sl_run (total2 ltb) (total2 eqb) dflt qs c)).
  Notation plt := (total2 ltb).
  Notation peq := (total2 eqb).

  Definition after (c c' : SL) : Prop := exists qs, Forall query qs /\ c' = qrun qs c.
  Definition R (l : list V) (c : SL) : Prop := reach c /\ shows c l.
  (** The same lists. *)
  Definition alike (c c' : SL) : Prop := lists c' = lists c /\ maxes c' = maxes c /\ len c' = len c /\ load c' = load c.

  Lemma after_refl c : after c c.
  Proof. exists []. split; [constructor|reflexivity]. Qed.
  Lemma after_trans a b c : after a b -> after b c -> after a c.
  Proof.
    intros (p & Hp & ->) (q & Hq & ->). exists (p ++ q). split; [apply Forall_app; auto|].
    unfold sl_run. rewrite run_app. cbn [snd]. reflexivity.
  Qed.
  Lemma query_ok (o : lop V) : query o -> lop_ok o.
  Proof. destruct o; simpl; tauto. Qed.

  Lemma query_alike o c : LInv ltb c -> query o -> alike c (snd (sl_step plt peq dflt o c)).
  Proof.
    intros HI Hq. destruct HI as [HS Hs]. pose proof (lshape_core c HS) as HC.
    assert (T : forall c', touch c c' -> alike c c').
    { intros c' H. unfold alike. rewrite (touch_lists _ _ H), (touch_maxes _ _ H), (touch_len _ _ H), (touch_load _ _ H). tauto. }
    assert (X : forall A (inj : A -> out V) (m : M SL A) r c', m c = (r, c') -> touch c c' -> alike c (snd (observe inj m c))).
    { intros A inj m r c' E H. unfold observe. rewrite E. destruct r; apply T; exact H. }
    pose proof (touch_refl c HC) as HR.
    destruct o; simpl in Hq; try contradiction; cbn [sl_step].
    - destruct (sl_contains_gen plt peq v c HS) as (r & E & _). exact (X _ _ _ _ _ E HR).
    - destruct (getitem_int_ok c i HC) as (c' & E & H). exact (X _ _ _ _ _ E H).
    - destruct (getitem_slice_ok c sl HC) as (c' & E & H). exact (X _ _ _ _ _ E H).
    - apply T. exact HR.
    - apply T. exact HR.
    - exact (X _ _ _ _ _ (reversed_ok c) HR).
    - destruct (sl_bisect_left_gen plt v c HS) as (r & c' & E & H & _). exact (X _ _ _ _ _ E H).
    - destruct (sl_bisect_right_gen plt v c HS) as (r & c' & E & H & _). exact (X _ _ _ _ _ E H).
    - destruct (sl_count_gen plt v c HS) as (r & c' & E & H & _). exact (X _ _ _ _ _ E H).
    - destruct (sl_index_gen plt peq v start stop c HS) as (r & c' & E & H & _). exact (X _ _ _ _ _ E H).
    - destruct (sl_irange_gen plt mn mx imin imax reverse c HS) as (r & E & _). exact (X _ _ _ _ _ E HR).
    - destruct (islice_ok c start stop reverse HC) as (r & c' & E & H & _). exact (X _ _ _ _ _ E H).
    - destruct (compare_gen plt peq op other c) as (r & E & _). exact (X _ _ _ _ _ E HR).
  Qed.

  Lemma alike_trans a b c : alike a b -> alike b c -> alike a c.
  Proof. intros (A1 & A2 & A3 & A4) (B1 & B2 & B3 & B4). unfold alike. rewrite B1, B2, B3, B4. auto. Qed.

  Lemma do_R o l c : R l c -> lop_ok o ->
    exists c', sl_step plt peq dflt o c = (fst (sp_step ltb eqb ltb o l), c') /\ R (snd (sp_step ltb eqb ltb o l)) c'.
  Proof. intros [HR Hl] Ho. exact (do_ok ltb eqb dflt HT Hd c l o HR Hl Ho). Qed.

  Lemma after_ok l c c' : R l c -> after c c' -> R l c' /\ alike c c'.
  Proof.
    intros HR (qs & Hq & ->). revert c HR. induction Hq as [|o qs Ho Hq IH]; intros c HR.
    - split; [exact HR|]. unfold alike. auto.
    - unfold sl_run. cbn [run]. destruct (do_R o l c HR (query_ok o Ho)) as (c1 & E & H1).
      assert (A : alike c c1) by (rewrite <- (f_equal snd E : _ = c1); apply query_alike; [apply (reach_inv ltb eqb dflt HT Hd); apply HR|exact Ho]).
      assert (H2 : R l c1) by (destruct o; simpl in Ho; try contradiction; exact H1).
      rewrite E. specialize (IH c1 H2). unfold sl_run in IH. destruct (run _ qs c1) as [rs c2]. cbn [snd] in *.
      destruct IH as [I1 I2]. split; [exact I1|]. eapply alike_trans; eauto.
  Qed.

  Section Ops.
    Variables lt eq : V -> V -> M SL bool.

    Section At.
      Variable l : list V.
      Hypothesis HL : reads ltb eqb dflt l lt ltb.
      Hypothesis HE : reads ltb eqb dflt l eq eqb.

      Lemma ask_lt x y c : R l c -> exists c', lt x y c = (Ok (ltb x y), c') /\ after c c'.
      Proof. intros [H1 H2]. destruct (HL c x y H1 H2) as (qs & Hq & E). eexists. split; [exact E|]. exists qs. auto. Qed.
      Lemma ask_eq x y c : R l c -> exists c', eq x y c = (Ok (eqb x y), c') /\ after c c'.
      Proof. intros [H1 H2]. destruct (HE c x y H1 H2) as (qs & Hq & E). eexists. split; [exact E|]. exists qs. auto. Qed.

      Lemma bisr_loop fuel a x : forall lo hi c, R l c ->
        exists c', r_bisect_right_loop lt fuel a x lo hi c = (bisect_right_loop plt fuel a x lo hi, c') /\ after c c'.
      Proof.
        induction fuel as [|fuel IH]; intros lo hi c HR; cbn [r_bisect_right_loop bisect_right_loop]; [exists c; split; [reflexivity|apply after_refl]|].
        destruct (lo <? hi); [|exists c; split; [reflexivity|apply after_refl]].
        unfold bind at 1, liftr. destruct (getn a ((lo + hi) / 2)) as [y|e]; cbn [rbind]; [|exists c; split; [reflexivity|apply after_refl]].
        destruct (ask_lt x y c HR) as (c1 & E & A1). rewrite (bind_ok _ _ _ _ _ E). cbn [total2 rbind].
        destruct (after_ok l c c1 HR A1) as [H1 _].
        destruct (ltb x y).
        - destruct (IH lo ((lo + hi) / 2) c1 H1) as (c2 & E2 & A2). exists c2. split; [exact E2|]. eapply after_trans; eauto.
        - destruct (IH (S ((lo + hi) / 2)) hi c1 H1) as (c2 & E2 & A2). exists c2. split; [exact E2|]. eapply after_trans; eauto.
      Qed.
      Lemma bisl_loop fuel a x : forall lo hi c, R l c ->
        exists c', r_bisect_left_loop lt fuel a x lo hi c = (bisect_left_loop plt fuel a x lo hi, c') /\ after c c'.
      Proof.
        induction fuel as [|fuel IH]; intros lo hi c HR; cbn [r_bisect_left_loop bisect_left_loop]; [exists c; split; [reflexivity|apply after_refl]|].
        destruct (lo <? hi); [|exists c; split; [reflexivity|apply after_refl]].
        unfold bind at 1, liftr. destruct (getn a ((lo + hi) / 2)) as [y|e]; cbn [rbind]; [|exists c; split; [reflexivity|apply after_refl]].
        destruct (ask_lt y x c HR) as (c1 & E & A1). rewrite (bind_ok _ _ _ _ _ E). cbn [total2 rbind].
        destruct (after_ok l c c1 HR A1) as [H1 _].
        destruct (ltb y x).
        - destruct (IH (S ((lo + hi) / 2)) hi c1 H1) as (c2 & E2 & A2). exists c2. split; [exact E2|]. eapply after_trans; eauto.
        - destruct (IH lo ((lo + hi) / 2) c1 H1) as (c2 & E2 & A2). exists c2. split; [exact E2|]. eapply after_trans; eauto.
      Qed.

      (** With the new state all that was known of the old one. *)
      Definition next (c c' : SL) : Prop := after c c' /\ R l c' /\ alike c c'.
      Lemma next_of c c' : R l c -> after c c' -> next c c'.
      Proof. intros H A. destruct (after_ok l c c' H A). split; auto. Qed.
      Lemma next_refl c : R l c -> next c c.
      Proof. intros H. apply next_of; [exact H|apply after_refl]. Qed.
      Lemma next_trans a b c : next a b -> next b c -> next a c.
      Proof. intros (A1 & A2 & A3) (B1 & B2 & B3). split; [eapply after_trans; eauto|]. split; [exact B2|eapply alike_trans; eauto]. Qed.
      Lemma bisr a x c : R l c -> exists c', r_bisect_right lt a x c = (bisect_right plt a x, c') /\ next c c'.
      Proof. intros H. destruct (bisr_loop (S (length a)) a x 0 (length a) c H) as (c' & E & A). exists c'. split; [exact E|apply next_of; auto]. Qed.
      Lemma bisl a x c : R l c -> exists c', r_bisect_left lt a x c = (bisect_left plt a x, c') /\ next c c'.
      Proof. intros H. destruct (bisl_loop (S (length a)) a x 0 (length a) c H) as (c' & E & A). exists c'. split; [exact E|apply next_of; auto]. Qed.
      Lemma sorted_ins x t : forall c, R l c -> exists c', r_sort_ins lt x t c = (sort_ins plt x t, c') /\ next c c'.
      Proof.
        induction t as [|y t IH]; intros c H; cbn [r_sort_ins sort_ins]; [exists c; split; [reflexivity|apply next_refl; exact H]|].
        destruct (ask_lt x y c H) as (c1 & E & A). pose proof (next_of c c1 H A) as N. rewrite (bind_ok _ _ _ _ _ E). cbn [total2 rbind].
        destruct (ltb x y); [exists c1; split; [reflexivity|exact N]|].
        destruct (IH c1 (proj1 (proj2 N))) as (c2 & E2 & N2). exists c2. split; [|eapply next_trans; eauto].
        unfold bind. rewrite E2. destruct (sort_ins plt x t); reflexivity.
      Qed.
      Lemma sorted_acc t : forall acc c, R l c -> exists c', r_sort_acc lt acc t c = (sort_acc plt acc t, c') /\ next c c'.
      Proof.
        induction t as [|x t IH]; intros acc c H; cbn [r_sort_acc sort_acc]; [exists c; split; [reflexivity|apply next_refl; exact H]|].
        destruct (sorted_ins x acc c H) as (c1 & E & N). unfold bind. rewrite E.
        destruct (sort_ins plt x acc) as [acc'|e]; cbn [rbind]; [|exists c1; split; [reflexivity|exact N]].
        destruct (IH acc' c1 (proj1 (proj2 N))) as (c2 & E2 & N2). exists c2. split; [exact E2|eapply next_trans; eauto].
      Qed.
      Lemma sorted_ok t c : R l c -> exists c', r_sorted lt t c = (py_sorted plt t, c') /\ next c c'.
      Proof. apply sorted_acc. Qed.

      Lemma add_late v c : R l c -> exists c', r_add lt v c = sl_add plt v c' /\ next c c'.
      Proof.
        intros H. unfold r_add, sl_add, bind, get, liftr. destruct (is_nil (maxes c)) eqn:En.
        { exists c. rewrite En. split; [reflexivity|apply next_refl; exact H]. }
        destruct (bisr (maxes c) v c H) as (c1 & E1 & N1). rewrite E1.
        pose proof N1 as (_ & H1 & (L1 & M1 & _)).
        destruct (bisect_right plt (maxes c) v) as [pos|e] eqn:Eb.
        2:{ exists c1. rewrite M1, En, Eb. split; [reflexivity|exact N1]. }
        destruct (pos =? length (maxes c)) eqn:Ep.
        { exists c1. rewrite M1, En, Eb, Ep. split; [reflexivity|exact N1]. }
        destruct (getn (lists c) pos) as [r|e] eqn:Eg.
        2:{ exists c1. rewrite M1, En, Eb, Ep. split; [|exact N1]. unfold modifyR at 1. rewrite updn_insort, L1, Eg. reflexivity. }
        destruct (bisr r v c1 H1) as (c2 & E2 & N2). rewrite E2. pose proof (next_trans _ _ _ N1 N2) as N.
        pose proof N as (_ & _ & (L2 & M2 & _)).
        exists c2. rewrite M2, En, Eb, Ep. split; [|exact N]. unfold modifyR at 2. rewrite updn_insort, L2, Eg. cbn [rbind].
        destruct (bisect_right plt r v) as [idx|e]; cbn [rbind]; [|reflexivity].
        unfold modifyR at 1. rewrite L2. reflexivity.
      Qed.

      Lemma find_late {A} v (absent : M SL A) found (m : M SL A) c : R l c ->
        (forall c, m c = (c <- get ;;
          if is_nil (maxes c) then absent
          else pos <- liftr (bisect_left plt (maxes c) v) ;;
            if pos =? length (maxes c) then absent
            else r <- liftr (getn (lists c) pos) ;; idx <- liftr (bisect_left plt r v) ;; x <- liftr (getn r idx) ;;
              e <- liftr (peq x v) ;; found pos idx e) c) ->
        exists c', r_find lt eq v absent found c = m c' /\ next c c'.
      Proof.
        intros H Hm. unfold r_find, bind, get, liftr. destruct (is_nil (maxes c)) eqn:En.
        { exists c. rewrite Hm. unfold bind, get, liftr. rewrite En. split; [reflexivity|apply next_refl; exact H]. }
        destruct (bisl (maxes c) v c H) as (c1 & E1 & N1). rewrite E1.
        pose proof N1 as (_ & H1 & (L1 & M1 & _)).
        destruct (bisect_left plt (maxes c) v) as [pos|e] eqn:Eb.
        2:{ exists c1. rewrite Hm. unfold bind, get, liftr. rewrite M1, En, Eb. split; [reflexivity|exact N1]. }
        destruct (pos =? length (maxes c)) eqn:Ep.
        { exists c1. rewrite Hm. unfold bind, get, liftr. rewrite M1, En, Eb, Ep. split; [reflexivity|exact N1]. }
        destruct (getn (lists c) pos) as [r|e] eqn:Eg.
        2:{ exists c1. rewrite Hm. unfold bind, get, liftr. rewrite M1, En, Eb, Ep, L1, Eg. split; [reflexivity|exact N1]. }
        destruct (bisl r v c1 H1) as (c2 & E2 & N2). rewrite E2. pose proof (next_trans _ _ _ N1 N2) as N.
        pose proof N as (_ & H2 & (L2 & M2 & _)).
        destruct (bisect_left plt r v) as [idx|e] eqn:Ei.
        2:{ exists c2. rewrite Hm. unfold bind, get, liftr. rewrite M2, En, Eb, Ep, L2, Eg, Ei. split; [reflexivity|exact N]. }
        destruct (getn r idx) as [x|e] eqn:Ex.
        2:{ exists c2. rewrite Hm. unfold bind, get, liftr. rewrite M2, En, Eb, Ep, L2, Eg, Ei, Ex. split; [reflexivity|exact N]. }
        destruct (ask_eq x v c2 H2) as (c3 & E3 & A3). rewrite E3. pose proof (next_trans _ _ _ N (next_of _ _ H2 A3)) as N3.
        pose proof N3 as (_ & _ & (L3 & M3 & _)).
        exists c3. rewrite Hm. unfold bind, get, liftr. rewrite M3, En, Eb, Ep, L3, Eg, Ei, Ex. split; [reflexivity|exact N3].
      Qed.

      (** [m] does from [c] what [m'] does after some queries. *)
      Definition late {A} (m m' : M SL A) (c : SL) : Prop := exists c', m c = m' c' /\ next c c'.
      Lemma late_refl {A} (m : M SL A) c : R l c -> late m m c.
      Proof. intros H. exists c. split; [reflexivity|apply next_refl; exact H]. Qed.
      Lemma late_lift {A B} (r : res A) (f g : A -> M SL B) c : R l c -> (forall a, r = Ok a -> late (f a) (g a) c) ->
        late (bind (liftr r) f) (bind (liftr r) g) c.
      Proof.
        intros HR H. unfold late, bind, liftr. destruct r as [a|e]; [exact (H a eq_refl)|].
        exists c. split; [reflexivity|apply next_refl; exact HR].
      Qed.
      Lemma late_step {A B} (m : M SL A) r (f g : A -> M SL B) c : (exists c', m c = (r, c') /\ next c c') ->
        (forall a c1, r = Ok a -> R l c1 -> late (f a) (g a) c1) -> late (bind m f) (bind (liftr r) g) c.
      Proof.
        intros (c1 & E & N) H. unfold late. unfold bind at 1. rewrite E. destruct r as [a|e].
        - destruct (H a c1 eq_refl (proj1 (proj2 N))) as (c2 & E2 & N2). exists c2. split; [exact E2|eapply next_trans; eauto].
        - exists c1. split; [reflexivity|exact N].
      Qed.
      Lemma late_last {A} (m : M SL A) r c : (exists c', m c = (r, c') /\ next c c') -> late m (liftr r) c.
      Proof. intros (c1 & E & N). exists c1. split; [exact E|exact N]. Qed.
      Lemma late_get {A} (f g : SL -> M SL A) c : late (f c) (g c) c -> (forall c', alike c c' -> g c' = g c) ->
        late (bind get f) (bind get g) c.
      Proof.
        intros (c1 & E & N) H. exists c1. split; [|exact N]. rewrite !bind_get, E.
        rewrite (H c1 (proj2 (proj2 N))). reflexivity.
      Qed.
      Lemma late_lt x y c : R l c -> exists c', lt x y c = (Ok (ltb x y), c') /\ next c c'.
      Proof. intros H. destruct (ask_lt x y c H) as (c' & E & A). exists c'. split; [exact E|apply next_of; auto]. Qed.
      Lemma late_eq x y c : R l c -> exists c', eq x y c = (Ok (eqb x y), c') /\ next c c'.
      Proof. intros H. destruct (ask_eq x y c H) as (c' & E & A). exists c'. split; [exact E|apply next_of; auto]. Qed.

      Ltac same := intros ? (? & ? & ? & ?); repeat match goal with H : _ = _ |- _ => rewrite H end; reflexivity.
      Ltac go := repeat (cbv zeta; first
        [ apply late_refl; assumption
        | apply late_lift; [assumption|intros ? _]
        | (eapply late_step; [first [apply bisr|apply bisl|apply late_lt|apply late_eq|apply sorted_ok]; assumption|intros ? ? _ ?])
        | match goal with |- late (if ?b then _ else _) _ _ => destruct b end ]).

      Lemma rank_left_late v c : R l c -> late (r_rank_left lt v) (sl_bisect_left plt v) c.
      Proof. intros H. apply late_get; [|same]. go. Qed.
      Lemma rank_right_late v c : R l c -> late (r_rank_right lt v) (sl_bisect_right plt v) c.
      Proof. intros H. apply late_get; [|same]. go. Qed.
      Lemma count_late v c : R l c -> late (r_count lt v) (sl_count plt v) c.
      Proof. intros H. apply late_get; [|same]. go. Qed.
      Lemma cmp_elt_late op a b c : R l c -> exists c', r_cmp_elt lt eq op a b c = (cmp_elt plt peq op a b, c') /\ next c c'.
      Proof.
        intros H. assert (N : forall m b, (exists c', m c = (Ok b, c') /\ next c c') ->
          exists c', (r <- m ;; ret (negb r)) c = (Ok (negb b), c') /\ next c c').
        { intros m b' (c' & E & N). exists c'. split; [rewrite (bind_ok _ _ _ _ _ E); reflexivity|exact N]. }
        destruct op; cbn [r_cmp_elt cmp_elt]; first [apply late_eq; exact H|apply late_lt; exact H|apply N; first [apply late_eq; exact H|apply late_lt; exact H]].
      Qed.
      Lemma cmp_loop_late op n m : forall xs ys c, R l c ->
        exists c', r_cmp_loop lt eq op n m xs ys c = (cmp_loop plt peq op n m xs ys, c') /\ next c c'.
      Proof.
        induction xs as [|x xs IH]; intros ys c H; destruct ys as [|y ys]; cbn [r_cmp_loop cmp_loop];
          try (exists c; split; [reflexivity|apply next_refl; exact H]).
        destruct (late_eq x y c H) as (c1 & E & N). rewrite (bind_ok _ _ _ _ _ E). cbn [total2 rbind].
        destruct (eqb x y); [destruct (IH ys c1 (proj1 (proj2 N))) as (c2 & E2 & N2)|destruct (cmp_elt_late op x y c1 (proj1 (proj2 N))) as (c2 & E2 & N2)];
          exists c2; (split; [exact E2|eapply next_trans; eauto]).
      Qed.
      Lemma compare_late op other c : R l c -> late (r_compare lt eq op other) (compare plt peq op other) c.
      Proof.
        intros H. apply late_get; [|same]. cbv zeta. destruct (_ && _); [apply late_refl; exact H|].
        destruct (_ && _); [apply late_refl; exact H|]. apply late_last. apply cmp_loop_late. exact H.
      Qed.
      (** The same when [m'] leaves the state alone. *)
      Definition still {A} (m m' : M SL A) (c : SL) : Prop := exists r c1, m c = (r, c1) /\ next c c1 /\ forall c', m' c' = (r, c').
      Lemma still_ret {A} (a : A) c : R l c -> still (ret a) (ret a) c.
      Proof. intros H. exists (Ok a), c. split; [reflexivity|]. split; [apply next_refl; exact H|reflexivity]. Qed.
      Lemma still_lift {A B} (r : res A) (f g : A -> M SL B) c : R l c -> (forall a, still (f a) (g a) c) ->
        still (bind (liftr r) f) (bind (liftr r) g) c.
      Proof.
        intros HR H. destruct r as [a|e].
        - destruct (H a) as (r & c1 & E & N & P). exists r, c1. split; [exact E|]. split; [exact N|]. exact P.
        - exists (Err e), c. split; [reflexivity|]. split; [apply next_refl; exact HR|reflexivity].
      Qed.
      Lemma still_step {A B} (m : M SL A) r (f g : A -> M SL B) c : (exists c', m c = (r, c') /\ next c c') ->
        (forall a c1, R l c1 -> still (f a) (g a) c1) -> still (bind m f) (bind (liftr r) g) c.
      Proof.
        intros (c1 & E & N) H. destruct r as [a|e].
        - destruct (H a c1 (proj1 (proj2 N))) as (r & c2 & E2 & N2 & P). exists r, c2.
          split; [rewrite (bind_ok _ _ _ _ _ E); exact E2|]. split; [eapply next_trans; eauto|exact P].
        - exists (Err e), c1. split; [rewrite (bind_err _ _ _ _ _ E); reflexivity|]. split; [exact N|reflexivity].
      Qed.
      Lemma late_still {A B} (m m' : M SL A) (f g : A -> M SL B) c : still m m' c -> (forall a c1, R l c1 -> late (f a) (g a) c1) ->
        late (bind m f) (bind m' g) c.
      Proof.
        intros (r & c1 & E & N & P) H. destruct r as [a|e].
        - destruct (H a c1 (proj1 (proj2 N))) as (c2 & E2 & N2). exists c2. rewrite (bind_ok _ _ _ _ _ E), (bind_ok _ _ _ _ _ (P c2)).
          split; [exact E2|eapply next_trans; eauto].
        - exists c1. rewrite (bind_err _ _ _ _ _ E), (bind_err _ _ _ _ _ (P c1)). split; [reflexivity|exact N].
      Qed.
      Lemma bis_l (incl : bool) xs x c : R l c -> exists c', (if incl then r_bisect_left lt else r_bisect_right lt) xs x c =
        ((if incl then bisect_left plt else bisect_right plt) xs x, c') /\ next c c'.
      Proof. intros H. destruct incl; [apply bisl|apply bisr]; exact H. Qed.
      Lemma bis_r (incl : bool) xs x c : R l c -> exists c', (if incl then r_bisect_right lt else r_bisect_left lt) xs x c =
        ((if incl then bisect_right plt else bisect_left plt) xs x, c') /\ next c c'.
      Proof. intros H. destruct incl; [apply bisr|apply bisl]; exact H. Qed.
      Ltac goes := repeat (cbv zeta; first
        [ apply still_ret; assumption
        | apply still_lift; [assumption|intros ?]
        | (eapply still_step; [first [apply bis_l|apply bis_r]; assumption|intros ? ? ?])
        | match goal with |- still (if ?b then _ else _) _ _ => destruct b end ]).
      Lemma irange_late mn mx a b r c : R l c -> late (r_irange lt mn mx a b r) (sl_irange plt mn mx a b r) c.
      Proof.
        intros H. apply late_get; [|same]. destruct (is_nil (maxes c)); [apply late_refl; exact H|].
        apply late_still; [destruct mn; goes|]. intros [[p i]|] c1 H1; [|apply late_refl; exact H1].
        apply late_still; [destruct mx; goes|]. intros q c2 H2. apply late_refl. exact H2.
      Qed.

      Lemma new_late it c : R l c -> late (r_new lt dflt it) (liftr (sl_new plt dflt it)) c.
      Proof.
        intros H. unfold r_new. destruct (sorted_ok it c H) as (c1 & E & N). exists c1. split; [|exact N].
        unfold bind. rewrite E. unfold liftr, sl_new, sl_update, bind, get, liftr.
        destruct (py_sorted plt it) as [vs|e]; reflexivity.
      Qed.
      Lemma makes_late (f : SL -> list V) c : R l c -> (forall c', alike c c' -> f c' = f c) ->
        late (bind get (fun c => r_new lt dflt (f c))) (bind get (fun c => liftr (sl_new plt dflt (f c)))) c.
      Proof. intros H Hf. apply late_get; [apply new_late; exact H|]. intros c' A. rewrite (Hf c' A). reflexivity. Qed.

      (** [update] of an empty list. *)
      Lemma update_nil it c : R l c -> l = [] -> late (r_update lt it) (sl_update plt it) c.
      Proof.
        intros H El. unfold r_update, sl_update. eapply late_step; [apply sorted_ok; exact H|]. intros vs c1 _ H1.
        apply late_get; [|same].
        assert (En : is_nil (maxes c1) = true).
        { destruct H1 as [H1 H2]. destruct (reach_inv ltb eqb dflt HT Hd c1 H1) as [HS _]. apply shows_iff in H2.
          rewrite El in H2. destruct (p_nil c1 HS H2) as (-> & _). reflexivity. }
        rewrite En. apply late_refl. exact H1.
      Qed.

      (** [index] asks for a position and compares again. *)
      Lemma index_loose v a b c : R l c ->
        exists r c' c1 c2, r_index lt eq v a b c = (r, c') /\ R l c' /\ R l c1 /\ sl_index plt peq v a b c1 = (r, c2).
      Proof.
        intros H.
        assert (Stop : forall e c1 m, R l c1 -> m c1 = (Err e, c1) -> sl_index plt peq v a b c1 = (Err e, c1) ->
          exists r c' c1' c2, m c1 = (r, c') /\ R l c' /\ R l c1' /\ sl_index plt peq v a b c1' = (r, c2)).
        { intros e c1 m H1 E1 E2. exists (Err e), c1, c1, c1. auto. }
        unfold r_index. rewrite bind_get. destruct (len c =? 0) eqn:E0.
        { apply (Stop ValueError c); [exact H|reflexivity|]. unfold sl_index. rewrite bind_get, E0. reflexivity. }
        cbv zeta. destruct (_ <=? _)%Z eqn:Ew.
        { apply (Stop ValueError c); [exact H|reflexivity|]. unfold sl_index. rewrite bind_get, E0. cbv zeta. rewrite Ew. reflexivity. }
        destruct (bisl (maxes c) v c H) as (c1 & E1 & N1). unfold bind at 1. rewrite E1.
        pose proof N1 as (_ & H1 & (L1 & M1 & Z1 & _)).
        destruct (bisect_left plt (maxes c) v) as [pos|e] eqn:Eb.
        2:{ exists (Err e), c1, c1, c1. split; [reflexivity|]. split; [exact H1|]. split; [exact H1|].
            unfold sl_index. rewrite bind_get, Z1, E0. cbv zeta. rewrite Ew. unfold bind at 1, liftr. rewrite M1, Eb. reflexivity. }
        destruct (pos =? length (maxes c)) eqn:Ep.
        { exists (Err ValueError), c1, c1, c1. split; [reflexivity|]. split; [exact H1|]. split; [exact H1|].
          unfold sl_index. rewrite bind_get, Z1, E0. cbv zeta. rewrite Ew. unfold bind at 1, liftr. rewrite M1, Eb, Ep. reflexivity. }
        unfold bind at 1, liftr at 1. destruct (getn (lists c) pos) as [r|e] eqn:Eg.
        2:{ exists (Err e), c1, c1, c1. split; [reflexivity|]. split; [exact H1|]. split; [exact H1|].
            unfold sl_index. rewrite bind_get, Z1, E0. cbv zeta. rewrite Ew. unfold bind, liftr. rewrite M1, Eb, Ep, L1, Eg. reflexivity. }
        destruct (bisl r v c1 H1) as (c2 & E2 & N2). unfold bind at 1. rewrite E2. pose proof (next_trans _ _ _ N1 N2) as N.
        pose proof N as (_ & H2 & (L2 & M2 & Z2 & _)).
        destruct (bisect_left plt r v) as [idx|e] eqn:Ei.
        2:{ exists (Err e), c2, c2, c2. split; [reflexivity|]. split; [exact H2|]. split; [exact H2|].
            unfold sl_index. rewrite bind_get, Z2, E0. cbv zeta. rewrite Ew. unfold bind, liftr. rewrite M2, Eb, Ep, L2, Eg, Ei. reflexivity. }
        unfold bind at 1, liftr at 1. destruct (getn r idx) as [x|e] eqn:Ex.
        2:{ exists (Err e), c2, c2, c2. split; [reflexivity|]. split; [exact H2|]. split; [exact H2|].
            unfold sl_index. rewrite bind_get, Z2, E0. cbv zeta. rewrite Ew. unfold bind, liftr. rewrite M2, Eb, Ep, L2, Eg, Ei, Ex. reflexivity. }
        destruct (ask_eq x v c2 H2) as (c3 & E3 & A3). unfold bind at 1. rewrite E3. pose proof (next_trans _ _ _ N (next_of _ _ H2 A3)) as N3.
        pose proof N3 as (_ & H3 & (L3 & M3 & Z3 & _)).
        destruct (eqb x v) eqn:Ee; cbn [negb].
        2:{ exists (Err ValueError), c3, c3, c3. split; [reflexivity|]. split; [exact H3|]. split; [exact H3|].
            unfold sl_index. rewrite bind_get, Z3, E0. cbv zeta. rewrite Ew. unfold bind, liftr, total2. unfold total2 in *. rewrite M3, Eb, Ep, L3, Eg, Ei, Ex, Ee. reflexivity. }
        assert (En : is_nil (maxes c) = false).
        { destruct (maxes c); [|reflexivity]. unfold bisect_left in Eb; cbn in Eb. injection Eb as E; subst pos. discriminate Ep. }
        assert (F : exists i c4, loc pos idx c3 = (Ok i, c4) /\ R l c4).
        { destruct (do_R (LBisectLeft v) l c3 H3 I) as (c4 & E4 & H4). cbn [sl_step] in E4. unfold observe, sl_bisect_left in E4.
          rewrite bind_get, M3, En in E4. unfold bind at 1, liftr at 1 in E4. rewrite Eb, Ep in E4.
          unfold bind, liftr in E4. rewrite L3, Eg, Ei in E4. destruct (loc pos idx c3) as [[i|e] c4'].
          - exists i, c4. injection E4 as _ <-. split; [reflexivity|exact H4].
          - cbn in E4. discriminate E4. }
        destruct F as (left & c4 & E4 & H4).
        unfold bind at 1. rewrite E4.
        assert (P : exists k, sl_index plt peq v a b c3 = k left c4 /\
          k = fun left => if (index_start a (Z.of_nat (len c)) <=? Z.of_nat left)%Z then
                if (Z.of_nat left <=? index_stop b (Z.of_nat (len c)) - 1)%Z then ret left else raise ValueError
              else right <- sl_bisect_right plt v ;;
                if (index_start a (Z.of_nat (len c)) <=? Z.of_nat right - 1)%Z then ret (Z.to_nat (index_start a (Z.of_nat (len c)))) else raise ValueError).
        { eexists. split; [|reflexivity]. unfold sl_index. rewrite bind_get, Z3, E0. cbv zeta. rewrite Ew. unfold bind at 1 2 3 4 5 6, liftr.
          rewrite M3, Eb, Ep, L3, Eg, Ei, Ex. unfold total2 at 1. rewrite Ee. cbn [negb]. rewrite E4. reflexivity. }
        destruct P as (k & P & Ek). subst k. clear Ew.
        destruct (_ <=? Z.of_nat left)%Z.
        { destruct (_ <=? _)%Z; eexists _, c4, c3, c4; (split; [reflexivity|split; [exact H4|split; [exact H3|exact P]]]). }
        destruct (rank_right_late v c4 H4) as (c5 & E5 & N5).
        destruct (do_R (LBisectRight v) l c5 (proj1 (proj2 N5)) I) as (c6 & E6 & H6).
        destruct (do_R (LBisectRight v) l c4 H4 I) as (c7 & E7 & H7).
        cbn [sl_step sp_step fst snd] in E6, E7, H6. unfold observe in E6, E7. unfold bind at 1. rewrite E5.
        unfold bind at 1 in P.
        destruct (sl_bisect_right plt v c5) as [[i|e] c6']; [|discriminate E6].
        destruct (sl_bisect_right plt v c4) as [[j|e] c7']; [|discriminate E7].
        injection E6 as Hi <-. injection E7 as Hj <-. assert (Hij : j = i) by congruence. rewrite Hij in P.
        destruct (_ <=? _)%Z; eexists _, c6', c3, c7'; (split; [reflexivity|split; [exact H6|split; [exact H3|exact P]]]).
      Qed.
    End At.

    (** ** All operations *)
    Lemma cleared_R ld : 1 <= ld -> R [] (mkcore [] [] [] 0 0 ld).
    Proof.
      intros H. split; [|reflexivity]. exists [LReset ld; LClear]. split; [constructor; [exact H|constructor; [exact I|constructor]]|].
      destruct ld as [|ld]; [lia|]. reflexivity.
    Qed.
    Definition upto o l : Prop := forall m, seen ltb o l m -> reads ltb eqb dflt m lt ltb /\ reads ltb eqb dflt m eq eqb.
    Definition fine o l c : Prop := exists c', r_step lt eq dflt o c = (fst (sp_step ltb eqb ltb o l), c') /\ R (snd (sp_step ltb eqb ltb o l)) c'.
    Lemma fine_late {A} (inj : A -> out V) (m m' : M SL A) o l c : lop_ok o -> late l m m' c ->
      r_step lt eq dflt o c = observe inj m c -> (forall c', sl_step plt peq dflt o c' = observe inj m' c') -> fine o l c.
    Proof.
      intros Ho (c1 & E & N) E1 E2. unfold fine. rewrite E1. unfold observe. rewrite E.
      pose proof (do_R o l c1 (proj1 (proj2 N)) Ho) as G. rewrite E2 in G. exact G.
    Qed.
    Lemma fine_same o l c : R l c -> lop_ok o -> r_step lt eq dflt o c = sl_step plt peq dflt o c -> fine o l c.
    Proof. intros H Ho E. unfold fine. rewrite E. exact (do_R o l c H Ho). Qed.

    Lemma adds_R vs : forall m c, R m c ->
      (forall k, reads ltb eqb dflt (fold_left (fun l v => sp_add ltb v l) (firstn k vs) m) lt ltb) ->
      exists c', forM (r_add lt) vs c = (Ok tt, c') /\ R (fold_left (fun l v => sp_add ltb v l) vs m) c'.
    Proof.
      induction vs as [|v vs IH]; intros m c H HL; cbn [forM fold_left]; [exists c; split; [reflexivity|exact H]|].
      destruct (add_late m (HL 0) v c H) as (c1 & E1 & N1).
      destruct (do_R (LAdd v) m c1 (proj1 (proj2 N1)) I) as (c2 & E2 & H2). cbn [sl_step sp_step fst snd] in E2, H2. unfold observe in E2.
      destruct (sl_add plt v c1) as [[u|e] c2']; [|discriminate E2]. injection E2 as <-.
      unfold bind. rewrite E1. apply IH; [exact H2|]. intros k. exact (HL (S k)).
    Qed.
    Lemma adds_pure vs : forall m c, R m c -> exists c', forM (sl_add plt) vs c = (Ok tt, c') /\ R (fold_left (fun l v => sp_add ltb v l) vs m) c'.
    Proof.
      induction vs as [|v vs IH]; intros m c H; cbn [forM fold_left]; [exists c; split; [reflexivity|exact H]|].
      destruct (do_R (LAdd v) m c H I) as (c2 & E2 & H2). cbn [sl_step sp_step fst snd] in E2, H2. unfold observe in E2.
      unfold bind. destruct (sl_add plt v c) as [[u|e] c2']; [|discriminate E2]. injection E2 as <-. apply IH. exact H2.
    Qed.
    Lemma R_fun l m c : R l c -> R m c -> l = m.
    Proof. intros [_ A] [_ B]. apply shows_iff in A. apply shows_iff in B. congruence. Qed.

    Lemma fill_fine it c : R [] c -> reads ltb eqb dflt [] lt ltb -> exists c', r_update lt it c = (Ok tt, c') /\ R (sp_update ltb it []) c'.
    Proof.
      intros H HL. destruct (update_nil [] HL it c H eq_refl) as (c1 & E1 & N1). rewrite E1.
      destruct (do_R (LUpdate it) [] c1 (proj1 (proj2 N1)) I) as (c2 & E2 & H2). cbn [sl_step sp_step fst snd] in E2, H2. unfold observe in E2.
      destruct (sl_update plt it c1) as [[[]|e] c2']; [|discriminate E2]. injection E2 as <-. exists c2'. auto.
    Qed.
    Lemma update_fine it l c : R l c -> negb (is_nil l) && (length l <=? length it * 4) = false ->
      (forall k, reads ltb eqb dflt (fold_left (fun l v => sp_add ltb v l) (firstn k (sp_sort ltb it)) l) lt ltb) ->
      exists c', r_update lt it c = (Ok tt, c') /\ R (sp_update ltb it l) c'.
    Proof.
      intros H Hn HL. destruct (is_nil l) eqn:El.
      - destruct l; [|discriminate]. exact (fill_fine it c H (HL 0)).
      - cbn [negb andb] in Hn. apply Nat.leb_gt in Hn.
        assert (X : forall c1, R l c1 -> is_nil (maxes c1) = false /\ (len c1 <=? length (sp_sort ltb it) * 4) = false).
        { intros c1 [R1 S1]. destruct (reach_inv ltb eqb dflt HT Hd c1 R1) as [HS _]. apply shows_iff in S1.
          split; [apply p_some; [exact HS|]; rewrite S1; intros E; rewrite E in El; discriminate|]. apply Nat.leb_gt.
          rewrite (p_len c1 HS), S1, sp_sort_length by apply (to_swo HT). exact Hn. }
        destruct (sorted_ok l (HL 0) it c H) as (c1 & E1 & N1). rewrite py_sorted_sp in E1 by apply (to_swo HT). pose proof (proj1 (proj2 N1)) as H1.
        destruct (adds_R (sp_sort ltb it) l c1 H1 HL) as (c2 & E2 & H2). exists c2. split.
        { unfold r_update. rewrite (bind_ok _ _ _ _ _ E1), bind_get. destruct (X c1 H1) as [-> ->]. exact E2. }
        destruct (adds_pure (sp_sort ltb it) l c H) as (c3 & E3 & H3).
        destruct (do_R (LUpdate it) l c H I) as (c4 & E4 & H4). cbn [sl_step sp_step fst snd] in E4, H4. unfold observe, sl_update in E4.
        rewrite py_sorted_sp in E4 by apply (to_swo HT). unfold bind at 1, liftr in E4. rewrite bind_get in E4. destruct (X c H) as [X1 X2]. rewrite X1, X2, E3 in E4.
        injection E4 as <-. rewrite (R_fun _ _ _ H4 H3). exact H2.
    Qed.
    (** What is done to a list that was cleared. *)
    Lemma refill_fine o l c it c0 : R l c -> lop_ok o -> R [] c0 -> reads ltb eqb dflt [] lt ltb ->
      r_step lt eq dflt o c = observe runit (r_update lt it) c0 -> sl_step plt peq dflt o c = observe runit (sl_update plt it) c0 -> fine o l c.
    Proof.
      intros H Ho H0 HL E1 E2. destruct (do_R o l c H Ho) as (c' & E3 & H3). rewrite E2 in E3.
      destruct (fill_fine it c0 H0 HL) as (c1 & F1 & G1).
      unfold fine. rewrite E1. unfold observe. rewrite F1.
      destruct (do_R (LUpdate it) [] c0 H0 I) as (c4 & E4 & H4). cbn [sl_step sp_step fst snd] in E4, H4.
      rewrite E4 in E3. injection E3 as Er <-. exists c1. rewrite <- Er. split; [reflexivity|]. rewrite (R_fun _ _ _ H3 H4). exact G1.
    Qed.

    Lemma all_fine o l c : R l c -> lop_ok o -> rebuilds o l = false -> upto o l -> fine o l c.
    Proof.
      intros H Ho Hb HU. pose proof H as [H1 H2]. destruct (reach_inv ltb eqb dflt HT Hd c H1) as [HS _].
      pose proof (lshape_load c HS) as Hld.
      assert (U : reads ltb eqb dflt l lt ltb -> reads ltb eqb dflt l eq eqb -> match o with LDelSlice _ | LReset _ | LIMul _ | LUpdate _ | LIAdd _ => True | _ => fine o l c end).
      2:{ destruct o; try (apply U; apply HU; reflexivity); clear U.
        - destruct (update_fine it l c H Hb) as (c' & E & G); [intros k; apply HU; exists k; reflexivity|].
          exists c'. cbn [r_step sp_step fst snd]. unfold observe. rewrite E. auto.
        - pose proof (proj1 (HU [] eq_refl)) as HL.
          destruct (o_delslice (fun c : SL => c) (fun c _ => c) sl_clear sl_delete (@LShape V) _ (sl_vt_ok plt)
            (fun s => ex_intro _ _ Logic.eq_refl) sl c HS) as [[_ G]|(s1 & s2 & rest & I1 & Hs2 & Em & G)].
          + apply fine_same; [exact H|exact Ho|]. cbn [r_step sl_step]. unfold r_vt, sl_vt, observe. rewrite (G (r_update lt)). reflexivity.
          + injection Hs2 as <-. eapply (refill_fine _ l c rest); [exact H|exact Ho|apply (cleared_R (load s1)), lshape_load, I1|exact HL| |].
            * cbn [r_step]. unfold r_vt, observe. rewrite (G (r_update lt)). reflexivity.
            * cbn [sl_step]. unfold sl_vt, observe. rewrite (G (sl_update plt)). reflexivity.
        - pose proof (proj1 (HU [] eq_refl)) as HL.
          eapply (refill_fine _ l c (contents c)); [exact H|exact Ho|apply (cleared_R ld), Ho|exact HL|reflexivity|reflexivity].
        - destruct (update_fine it l c H Hb) as (c' & E & G); [intros k; apply HU; exists k; reflexivity|].
          exists c'. cbn [r_step sp_step fst snd]. unfold observe, iadd. cbn [vt_update r_vt]. rewrite E. auto.
        - pose proof (proj1 (HU [] eq_refl)) as HL.
          eapply (refill_fine _ l c (list_mul (contents c) n)); [exact H|exact Ho|apply (cleared_R (load c)), Hld|exact HL|reflexivity|reflexivity]. }
      intros HL HE.
      assert (N : forall f, (forall c', alike c c' -> f c' = f c) ->
        r_step lt eq dflt o c = rebind (bind get (fun c => r_new lt dflt (f c))) c ->
        (forall c', sl_step plt peq dflt o c' = rebind (bind get (fun c => liftr (sl_new plt dflt (f c)))) c') -> fine o l c).
      { intros f Hf E1 E2. destruct (makes_late l HL f c H Hf) as (c1 & E & N).
        unfold fine. rewrite E1. unfold rebind. rewrite E. pose proof (do_R o l c1 (proj1 (proj2 N)) Ho) as G. rewrite E2 in G. exact G. }
      destruct o; try exact I; try (apply fine_same; [exact H|exact Ho|reflexivity]).
      - eapply fine_late; [exact I|exact (add_late l HL v c H)|reflexivity|reflexivity].
      - eapply fine_late; [exact I|exact (find_late l HL HE v _ _ (sl_discard plt peq v) c H ltac:(reflexivity))|reflexivity|reflexivity].
      - eapply fine_late; [exact I|exact (find_late l HL HE v _ _ (sl_remove plt peq v) c H ltac:(reflexivity))|reflexivity|reflexivity].
      - eapply fine_late; [exact I|refine (find_late l HL HE v _ _ (sl_contains plt peq v) c H _)|reflexivity|reflexivity].
        intros c'. unfold sl_contains. rewrite !bind_get. destruct (is_nil (maxes c')); [reflexivity|].
        unfold bind, liftr, ret. destruct (bisect_left plt (maxes c') v) as [pos|]; [|reflexivity]. destruct (pos =? length (maxes c')); [reflexivity|].
        destruct (getn (lists c') pos) as [r|]; [|reflexivity]. destruct (bisect_left plt r v) as [i|]; [|reflexivity].
        destruct (getn r i) as [x|]; [|reflexivity]. reflexivity.
      - eapply fine_late; [exact I|exact (rank_left_late l HL v c H)|reflexivity|reflexivity].
      - eapply fine_late; [exact I|exact (rank_right_late l HL v c H)|reflexivity|reflexivity].
      - eapply fine_late; [exact I|exact (count_late l HL v c H)|reflexivity|reflexivity].
      - destruct (index_loose l HL HE v start stop c H) as (r & c' & c1 & c2 & E1 & G1 & G2 & E2).
        destruct (do_R (LIndex v start stop) l c1 G2 I) as (c3 & E3 & _). cbn [sl_step sp_step fst snd] in E3. unfold observe in E3. rewrite E2 in E3.
        exists c'. cbn [r_step sp_step fst snd]. unfold observe. rewrite E1. split; [|exact G1].
        destruct r; injection E3 as <- _; reflexivity.
      - eapply fine_late; [exact I|exact (irange_late l HL mn mx imin imax reverse c H)|reflexivity|reflexivity].
      - apply (N (fun c => concat (lists c))); [intros c' A; destruct A as (-> & _); reflexivity|reflexivity|reflexivity].
      - apply (N (fun c => contents c ++ it)); [intros c' A; unfold contents; destruct A as (-> & _); reflexivity|reflexivity|reflexivity].
      - apply (N (fun c => list_mul (contents c) n)); [intros c' A; unfold contents; destruct A as (-> & _); reflexivity|reflexivity|reflexivity].
      - apply (N (fun c => contents c)); [intros c' A; unfold contents; destruct A as (-> & _); reflexivity|reflexivity|reflexivity].
      - eapply fine_late; [exact I|exact (compare_late l HL HE op other c H)|reflexivity|reflexivity].
    Qed.
  End Ops.
End Reads.

Lemma c107_list : forall (V : Type) (ltb eqb : V -> V -> bool) dflt lt eq c l o,
  TotalOrder ltb eqb -> 1 <= dflt -> sl_reach ltb eqb dflt c -> shows c l -> lop_ok o ->
  rebuilds o l = false ->
  (forall m, seen ltb o l m -> reads ltb eqb dflt m lt ltb /\ reads ltb eqb dflt m eq eqb) ->
  as_without ltb eqb dflt (r_step lt eq dflt) o c.
Proof.
  intros V ltb eqb dflt lt eq c l o HT Hd Hc Hl Ho Hb HU.
  destruct (all_fine ltb eqb dflt HT Hd lt eq o l c (conj Hc Hl) Ho Hb HU) as (c2 & E2 & H2 & S2).
  destruct (do_ok ltb eqb dflt HT Hd c l o Hc Hl Ho) as (c1 & E1 & H1 & S1).
  eexists _, c1, c2, _. split; [exact E1|]. split; [exact S1|]. split; [exact E2|]. split; [exact H2|exact S2].
Qed.

Lemma reads_nosy m (f : nat -> nat -> bool) : reads Nat.ltb Nat.eqb 2 m (nosy f) f.
Proof.
  intros c x y _ _. exists [LLen; LGet 0; LBisectLeft x]. split; [repeat constructor|reflexivity].
Qed.
Lemma reads_wary m (f : nat -> nat -> bool) : reads Nat.ltb Nat.eqb 2 m (wary f) f.
Proof.
  intros c x y Hc Hl. exists []. split; [constructor|].
  destruct (reach_inv Nat.ltb Nat.eqb 2 nat_total (le_S 1 1 (le_n 1)) c Hc) as [HS _].
  unfold wary, length_of, iter, bind, get, ret. rewrite (p_len c HS), Nat.eqb_refl. reflexivity.
Qed.

Lemma c108_update : ~ forall (V : Type) (ltb eqb : V -> V -> bool) dflt lt eq c l o,
  TotalOrder ltb eqb -> 1 <= dflt -> sl_reach ltb eqb dflt c -> shows c l -> lop_ok o ->
  (forall m, reads ltb eqb dflt m lt ltb /\ reads ltb eqb dflt m eq eqb) ->
  as_without ltb eqb dflt (r_step lt eq dflt) o c.
Proof.
  intros H.
  destruct (H nat Nat.ltb Nat.eqb 2 (wary Nat.ltb) (wary Nat.eqb) (nlist [1]) [1] (LUpdate [2; 3]) nat_total ltac:(lia) (nlist_reach [1]) eq_refl I
    (fun m => conj (reads_wary m Nat.ltb) (reads_wary m Nat.eqb))) as (r & c1 & c2 & m & E1 & _ & E2 & _).
  vm_compute in E1, E2. congruence.
Qed.

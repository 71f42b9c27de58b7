(** * Histories answered by the text (proofs) *)
From Coq Require Import String.
From Verif Require Import PyBase BaseFacts Model CoreFacts Shape ListFacts ListSim Spec History HistFacts Reach.
From Verif Require Import SourceSyntax SourceText SourceSem SourceRep SourceFacts SourceLoops SourceBuild SourceTree SourceMoves SourceMethods SourceChange SourceAdd SourcePos SourcePop SourceFill SourceBulk SourceGet SourceSlice SourceIter SourceRange SourceIrange SourceDel SourceRun.
Local Open Scope string_scope.
Local Open Scope nat_scope.
Local Open Scope list_scope.
Local Unset Implicit Arguments.

Lemma methods_source : methods_of source = klass.
Proof. vm_compute. reflexivity. Qed.

Lemma kept_holds {V} L X I s (c : core V V) : holds L X I s c -> kept s = map VElt (contents c).
Proof.
  intros H. destruct (holds_rep _ _ _ _ _ H) as (h & nx & ids & -> & (HX & HI & HL & Hm & Hd & Hf)).
  unfold kept. cbn [attrs find String.eqb Ascii.eqb Bool.eqb heap]. rewrite HL, map_map. change (map (fun x => h x) ids) with (map h ids). rewrite Hm. unfold contents.
  rewrite concat_map. reflexivity.
Qed.

Lemma fresh_holds {V} dflt : holds 0 1 2 (@fresh V dflt) (sl_init dflt).
Proof.
  constructor; try reflexivity. exists []. repeat split.
  - repeat constructor; cbn; intuition lia.
  - cbn. repeat constructor.
Qed.

Section Hist.
  Context {V : Type} (ltb eqb : V -> V -> bool) (HT : TotalOrder ltb eqb) (dflt : nat) (Hd : 1 <= dflt).
  Notation lt := (total2 ltb).
  Notation eq := (total2 eqb).
  Notation step := (sl_step lt eq dflt).
  Notation LInv := (LInv ltb).

  Lemma touch_inv (c c1 : core V V) : LInv c -> touch c c1 -> LInv c1.
  Proof.
    intros [H1 H2] Ht. split; [|rewrite (touch_contents _ _ Ht); exact H2]. exact (lshape_touch _ _ H1 Ht).
  Qed.

  Definition follows (n d : nat) (o : lop V) (L X I : nat) (c : core V V) (s : st V) : Prop :=
    exists s', text_step lt eq klass n d o s = (fst (step o c), s') /\ holds L X I s' (snd (step o c)).

  (** one call, its outcome in the model known *)
  Lemma via {A} (m : M (core V V) A) (inj : A -> out V) (emb : A -> val V) w n d name args L X I s c :
    (forall s a, shown w s (emb a) = inj a) ->
    wp (call lt eq klass n d name args) s (fun r s' => r = rmap emb (fst (m c)) /\ holds L X I s' (snd (m c))) ->
    exists s', invoked lt eq klass n d w name args s = (fst (observe inj m c), s') /\ holds L X I s' (snd (observe inj m c)).
  Proof.
    intros He H. unfold wp in H. unfold invoked, observe. destruct (call lt eq klass n d name args s) as [r s'].
    cbn in H. destruct H as (-> & H). exists s'. destruct (m c) as [[a|e] c']; cbn [rmap fst snd seen] in *; rewrite ?He; auto.
  Qed.
  Lemma shown_elts (s : st V) q l : heap s q = map VElt l -> shown WValue s (VList q) = RList l /\ shown WIter s (VIter q) = RList l.
  Proof. intros H. cbn [shown]. rewrite H, elts_map. auto. Qed.
  Lemma via_iter (m : M (core V V) (list V)) n d name args L X I s c l c' : m c = (Ok l, c') ->
    wp (call lt eq klass n d name args) s (yields L X I l c') ->
    exists s', invoked lt eq klass n d WIter name args s = (fst (observe (@RList V) m c), s') /\ holds L X I s' (snd (observe (@RList V) m c)).
  Proof.
    intros E H. unfold wp in H. unfold invoked, observe. destruct (call lt eq klass n d name args s) as [r s'].
    cbn [fst snd] in H. destruct H as (q & -> & Hq & H). exists s'. rewrite E. cbn [seen fst snd]. rewrite (proj2 (shown_elts _ _ _ Hq)). auto.
  Qed.
  Lemma via_slice (m : M (core V V) (list V)) n d name args L X I s c :
    wp (call lt eq klass n d name args) s (gives L X I n s (m c)) ->
    exists s', invoked lt eq klass n d WValue name args s = (fst (observe (@RList V) m c), s') /\ holds L X I s' (snd (observe (@RList V) m c)).
  Proof.
    intros H. unfold wp in H. unfold invoked, observe. destruct (call lt eq klass n d name args s) as [r s'].
    cbn [fst snd] in H. exists s'. destruct (m c) as [[l|e] c']; cbn [fst snd] in H; unfold gives in H; cbn [fst snd] in H.
    - destruct H as ((q & -> & _ & Hq) & H & _). cbn [seen fst snd]. rewrite (proj1 (shown_elts _ _ _ Hq)). auto.
    - destruct H as (-> & H & _). cbn [seen fst snd]. auto.
  Qed.
  Lemma shown_nat (s : st V) k : shown WValue s (@vnat V k) = RNat k.
  Proof. unfold shown, vnat. destruct (Z.ltb_spec (Z.of_nat k) 0); [lia|]. rewrite Nat2Z.id. reflexivity. Qed.

  Lemma via_on {A} (m : M (core V V) A) (inj : A -> out V) (emb : A -> val V) w n d name it L X I s c :
    (forall s a, shown w s (emb a) = inj a) -> holds L X I s c ->
    (forall s1 q, holds L X I s1 c -> heap s1 q = map VElt it ->
      wp (call lt eq klass n d name [VList q]) s1 (fun r s' => r = rmap emb (fst (m c)) /\ holds L X I s' (snd (m c)))) ->
    exists s', invoked_on lt eq klass n d w name it s = (fst (observe inj m c), s') /\ holds L X I s' (snd (observe inj m c)).
  Proof.
    intros He H Hc. destruct (holds_rep _ _ _ _ _ H) as (h & nx & ids & -> & R).
    pose proof (rep_holds L X I _ _ _ _ _ _ (len c) (load c) (offset c) (rep_new _ _ _ _ _ _ _ _ _ (map VElt it) R)) as H1.
    assert (H2 : holds L X I (mkst (on h nx (map VElt it)) (S nx) (slots (len c) (load c) L X I (offset c))) c)
      by (clear - H1; destruct c; exact H1).
    exact (via m inj emb w n d name [VList nx] L X I _ c He (Hc _ nx H2 (on_same _ _ _))).
  Qed.

  Lemma step_ok o c : LInv c -> in_text o = true -> lop_ok o ->
    exists n0, forall n d L X I s, n0 <= n -> holds L X I s c -> follows n (6 + d) o L X I c s.
  Proof.
    intros HI Ho Hok. destruct (enough_some c) as (n0 & Hn0).
    pose proof (proj1 HI) as HS. pose proof (to_swo HT) as HO. pose proof (lshape_load _ HS) as Hld.
    assert (HB : exists n1, forall n, n1 <= n -> match o with
      | LUpdate it | LIAdd it => bulk_n ltb eqb c it n
      | LReset ld => bulk_n ltb eqb (mkcore [] [] [] 0 0 ld) (contents c) n
      | LIMul z => bulk_n ltb eqb (mkcore [] [] [] 0 0 (load c)) (list_mul (contents c) z) n
      | LDelSlice sl => forall d L X I s, holds L X I s c ->
          wp (call lt eq klass n (6 + d) "__delitem__" [VSlice sl]) s
             (fun r s' => r = rmap (fun _ => VNone) (fst (delitem_slice (sl_vt lt) sl c)) /\ holds L X I s' (snd (delitem_slice (sl_vt lt) sl c)))
      | _ => True end).
    { destruct o; try (exists 0; intros; exact Logic.I); try (destruct (src_del_slice ltb eqb HT sl c HI) as (n1 & Hn1); exists n1; intros; apply Hn1; assumption); apply (bulk_some ltb eqb HT); try exact HI; apply empty_inv; [exact Hok|exact Hld]. }
    destruct HB as (n1 & Hn1). exists (Nat.max n0 n1). intros k d L X I s Hn H. specialize (Hn0 k ltac:(lia)). specialize (Hn1 k ltac:(lia)).
    unfold follows.
    destruct o; cbn [in_text] in Ho; try discriminate; cbn [text_step sl_step].
    - apply (via _ _ (fun _ => VNone)); [intros ? []; reflexivity|].
      destruct (sl_add_ok ltb HO v c HS (proj2 HI)) as (c' & E & _). rewrite E.
      exact (src_add lt eq k (4 + d) v L X I s c c' HS Hn0 H E).
    - apply (via_on _ _ (fun _ => VNone)); [intros ? []; reflexivity|exact H|]. intros s1 q H1 Hq.
      eapply wp_mono; [exact (src_update ltb eqb HT k (3 + d) L X I s1 c it q "update" (or_introl eq_refl) HI Hn1 H1 Hq)|].
      destruct (sl_update_ok ltb HO it c HS (proj2 HI)) as (c' & E & _). rewrite E. cbv beta. intros r s' (-> & H'). split; [reflexivity|exact H'].
    - apply (via _ _ (fun _ => VNone)); [intros ? []; reflexivity|].
      exact (src_clear lt eq k (5 + d) L X I s c "clear" (or_introl eq_refl) H).
    - apply (via _ _ (fun _ => VNone)); [intros ? []; reflexivity|].
      destruct (sl_discard_ok ltb eqb HT v c HS (proj2 HI)) as (c' & E & _). rewrite E.
      exact (src_discard lt eq k (3 + d) v L X I s c c' Hn0 H E).
    - apply (via _ _ (fun _ => VNone)); [intros ? []; reflexivity|].
      exact (src_remove lt eq k (3 + d) v L X I s c _ _ HS Hn0 H (surjective_pairing _)).
    - apply (via _ _ VBool); [reflexivity|].
      eapply wp_mono; [exact (src_contains lt eq k (5 + d) v L X I s c H)|]. cbv beta. intros r s' (-> & ->).
      split; [reflexivity|]. rewrite (sl_contains_ok ltb eqb HT v c HS (proj2 HI)). exact H.
    - apply (via _ _ VElt); [reflexivity|].
      eapply wp_mono; [exact (src_get_int lt eq k (3 + d) L X I s c i "__getitem__" (or_introl eq_refl) HS Hn0 H)|]. cbv beta. tauto.
    - apply via_slice. exact (src_slice lt eq k (1 + d) L X I s c sl "__getitem__" (or_introl eq_refl) HS Hn0 H).
    - apply (via _ _ (fun _ => VNone)); [intros ? []; reflexivity|].
      exact (src_del_int lt eq k (3 + d) L X I s c _ _ i HS Hn0 H (surjective_pairing _)).
    - apply (via _ _ (fun _ => VNone)); [intros ? []; reflexivity|]. exact (Hn1 d L X I s H).
    - apply (via _ _ VElt); [reflexivity|].
      exact (src_pop lt eq k (3 + d) L X I s c _ _ i HS Hn0 H (surjective_pairing _)).
    - apply (via _ _ vnat); [exact shown_nat|].
      eapply wp_mono; [exact (src_len lt eq k (5 + d) L X I s c H)|]. cbv beta. intros r s' (-> & ->). split; [reflexivity|exact H].
    - apply (via_iter iter _ _ _ _ L X I s c (contents c) c); [reflexivity|exact (src_iter lt eq k (5 + d) L X I s c H)].
    - apply (via_iter reversed _ _ _ _ L X I s c (concat (map (@rev V) (rev (lists c)))) c); [reflexivity|exact (src_reversed lt eq k (5 + d) L X I s c H)].
    - apply (via _ _ vnat); [exact shown_nat|].
      destruct (sl_bisect_left_ok ltb HO v c HS (proj2 HI)) as (c' & E & _). rewrite E.
      exact (src_bisect_left lt eq k (3 + d) v L X I s c c' _ HS Hn0 H E).
    - apply (via _ _ vnat); [exact shown_nat|].
      destruct (sl_bisect_right_ok ltb HO v c HS (proj2 HI)) as (c' & E & _). rewrite E.
      exact (src_bisect_right lt eq k (3 + d) v L X I s c c' _ "bisect_right" HS Hn0 (or_introl eq_refl) H E).
    - apply (via _ _ vnat); [exact shown_nat|].
      destruct (sl_count_ok ltb eqb HT v c HS (proj2 HI)) as (c' & E & _). rewrite E.
      exact (src_count lt eq k (3 + d) v L X I s c c' _ HS Hn0 H E).
    - apply (via _ _ vnat); [exact shown_nat|].
      refine (src_index lt eq k (2 + d) v L X I s c _ _ start stop HS Hn0 H _ (surjective_pairing _)).
      intros c1 Ht. destruct (touch_inv c c1 HI Ht) as [H1 H2].
      destruct (sl_bisect_right_ok ltb HO v c1 H1 H2) as (c' & E & _). eauto.
    - pose proof (sl_irange_ok ltb HO mn mx imin imax reverse c HS (proj2 HI)) as E.
      apply (via_iter _ _ _ _ _ L X I s c _ _ E). exact (src_irange lt eq k (4 + d) L X I s c _ mn mx imin imax reverse _ HS H E).
    - destruct (islice_ok c start stop reverse (lshape_core _ HS)) as (r & c' & E & _).
      apply (via_iter _ _ _ _ _ L X I s c _ _ E). exact (src_islice lt eq k (3 + d) L X I s c c' start stop reverse _ HS Hn0 H E).
    - apply (via _ _ (fun _ => VNone)); [intros ? []; reflexivity|].
      eapply wp_mono; [exact (src_reset ltb eqb HT k (2 + d) L X I s c ld Hok Hn1 H)|].
      destruct (empty_inv ltb ld Hok) as [HE1 HE2]. destruct (sl_update_ok ltb HO (contents c) _ HE1 HE2) as (c' & E & _).
      change (reset (sl_vt lt) ld c) with (sl_update lt (contents c) (mkcore [] [] [] 0 0 ld)).
      rewrite E. cbv beta. intros r s' (-> & H'). split; [reflexivity|exact H'].
    - apply (via_on _ _ (fun _ => VSelf)); [intros ? []; reflexivity|exact H|]. intros s1 q H1 Hq.
      eapply wp_mono; [exact (src_iadd ltb eqb HT k (2 + d) L X I s1 c it q HI Hn1 H1 Hq)|].
      change (iadd (sl_vt lt) it c) with (sl_update lt it c).
      destruct (sl_update_ok ltb HO it c HS (proj2 HI)) as (c' & E & _). rewrite E. cbv beta. intros r s' (-> & H'). split; [reflexivity|exact H'].
    - apply (via _ _ (fun _ => VSelf)); [intros ? []; reflexivity|].
      eapply wp_mono; [exact (src_imul ltb eqb HT k (2 + d) L X I s c n Hld Hn1 H)|].
      destruct (empty_inv ltb (load c) Hld) as [HE1 HE2]. destruct (sl_update_ok ltb HO (list_mul (contents c) n) _ HE1 HE2) as (c' & E & _).
      change (imul (sl_vt lt) n c) with (sl_update lt (list_mul (contents c) n) (mkcore [] [] [] 0 0 (load c))).
      rewrite E. cbv beta. intros r s' (-> & H'). split; [reflexivity|exact H'].
  Qed.

  Lemma run_ok ops : forall c, LInv c -> Forall lop_ok ops -> Forall (fun o => in_text o = true) ops ->
    exists n0, forall n d L X I s, n0 <= n -> holds L X I s c ->
      exists s', run (text_step lt eq klass n (6 + d)) ops s = (fst (run step ops c), s') /\ holds L X I s' (snd (run step ops c)).
  Proof.
    induction ops as [|o ops IH]; intros c HI Hok Hin.
    - exists 0. intros n d L X I s _ H. exists s. split; [reflexivity|exact H].
    - inversion Hok as [|? ? Ho Hok']. inversion Hin as [|? ? Hi Hin']. subst.
      destruct (sl_step_inv ltb eqb HT dflt Hd o c HI Ho) as (c' & E & HI' & _).
      destruct (step_ok o c HI Hi Ho) as (n1 & H1). destruct (IH c' HI' Hok' Hin') as (n2 & H2).
      exists (Nat.max n1 n2). intros n d L X I s Hn H.
      destruct (H1 n d L X I s ltac:(lia) H) as (s1 & E1 & Hs1). rewrite E in E1, Hs1. cbn [fst snd] in E1, Hs1.
      destruct (H2 n d L X I s1 ltac:(lia) Hs1) as (s2 & E2 & Hs2).
      exists s2. cbn [run]. rewrite E, E1, E2. destruct (run step ops c') as [rs c2]. cbn. auto.
  Qed.
End Hist.

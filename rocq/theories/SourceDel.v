(** * The method __delitem__ (proofs) *)
From Coq Require Import String.
From Verif Require Import IndexFacts SliceFacts CoreFacts Shape VtFacts ListSim Spec ListFacts History HistFacts.
From Verif Require Import PyBase BaseFacts Model SourceSyntax SourceText SourceSem SourceRep SourceFacts SourceLoops SourceBuild SourceMoves SourceTree SourceMethods SourceChange SourceAdd SourcePos SourcePop SourceFill SourceBulk SourceGet SourceSlice SourceIter.
Local Open Scope string_scope.
Local Open Scope nat_scope.
Local Open Scope list_scope.
Local Unset Implicit Arguments.

Section Del.
  Context {V : Type} (lt eq : V -> V -> res bool).

  Lemma src_del_int n d L X I s (c c' : core V V) r0 z :
    LShape c -> enough c n -> holds L X I s c -> delitem_int (sl_vt lt) z c = (r0, c') ->
    wp (call lt eq klass n (S (S (S d))) "__delitem__" [VInt z]) s
       (fun r s' => r = rmap (fun _ => VNone) r0 /\ holds L X I s' c').
  Proof.
    intros Hc Hn H E. enter. destruct (holds_rep _ _ _ _ _ H) as (h & nx & ids & -> & R). pose proof R as (HX & HI & HL & Hm & Hd & Hf).
    pose proof (lshape_core _ Hc) as HC.
    unfold delitem_int, oncore, zoom, sl_vt, bind, get, liftr, ret, raise in E. cbn [vt_get vt_put vt_delete] in E.
    run. destruct (in_or_out z (len c)) as [Hin|Hout].
    - destruct (pos_of_ok c z HC Hin) as (p & k & c1 & E1 & Ht & Hloc). rewrite E1 in E.
      destruct (pos_enough n z c c1 (p, k) Hc Hn E1) as (Hc1 & Hn1 & _).
      eapply wp_mono; [apply (src_pos lt eq n d L X I _ c c1 z p k H E1 Hn HC)|].
      cbv beta. intros r s' (-> & H'). destruct (holds_rep _ _ _ _ _ H') as (h1 & nx1 & ids1 & -> & R1).
      run. cbn [bind_names bind_name]. run.
      destruct (locate_get _ _ _ _ Hloc) as (l & Hgp & _ & Hkl & _). destruct (getn_has l k Hkl) as (x & Hx).
      cbn [fst snd] in E. rewrite <- (touch_lists _ _ Ht) in Hgp.
      names. run. names. run.
      eapply wp_mono; [apply (src_del_at lt eq n d L X I _ c1 _ _ l x Hc1 Hn1 H' Hgp Hx)|].
      cbv beta. intros r s' (-> & c2 & E2 & H2). rewrite E2 in E. injection E as <- <-. run. split; [reflexivity|exact H2].
    - rewrite (pos_of_err c z HC Hout) in E. injection E as <- <-.
      eapply wp_mono; [apply (src_pos_out lt eq n d L X I _ c z H HC Hout)|].
      cbv beta. intros r s' (-> & H'). run. split; [reflexivity|exact H'].
  Qed.
End Del.

(** The loop of a deletion one by one. *)
Definition del_body : stmt :=
  SSeq (SAssign (ETuple [EName "pos"; EName "idx"]) (ECall (EName "_pos") [EName "index"]))
       (SExpr (ECall (EName "_delete") [EName "pos"; EName "idx"])).

Definition del_tail : stmt := Eval vm_compute in
  match lookup klass 100 "__delitem__" klass with
  | Some (_, SIf _ (SSeq _ (SSeq _ b)) _) => b
  | _ => SPass
  end.

Section DelSlice.
  Context {V : Type} (ltb eqb : V -> V -> bool) (HT : TotalOrder ltb eqb).
  Notation lt := (total2 ltb).
  Notation eq := (total2 eqb).
  Notation LInv := (LInv ltb).
  Notation del1 := (delitem_int (sl_vt lt)).

  Lemma del_inv z (c : core V V) : LInv c -> LInv (snd (del1 z c)).
  Proof.
    intros HI. destruct (sl_step_inv ltb eqb HT 1 ltac:(lia) (LDel z) c HI Logic.I) as (c' & E & HI' & _).
    cbn [sl_step] in E. unfold observe in E. destruct (del1 z c) as [[|] c1]; injection E as _ <-; exact HI'.
  Qed.

  Lemma src_del_body n d L X I s (c : core V V) z en : LShape c -> enough c n -> holds L X I s c ->
    find "_pos" en = Some (VMeth "_pos") -> find "_delete" en = Some (VMeth "_delete") ->
    wp (en' <- assign lt eq (call lt eq klass n (S (S d))) (EName "index") (VInt z) en ;; exec lt eq (call lt eq klass n (S (S d))) n del_body en') s
       (fun r s' => match fst (del1 z c) with
                    | Ok _ => exists en', r = Ok (Go en') /\ find "_pos" en' = Some (VMeth "_pos") /\ find "_delete" en' = Some (VMeth "_delete")
                    | Err e => r = Err e
                    end /\ holds L X I s' (snd (del1 z c))).
  Proof.
    intros Hc Hn H F1 F2. pose proof (lshape_core _ Hc) as HC. destruct (del1 z c) as [r0 c'] eqn:E. cbn [fst snd].
    destruct (holds_rep _ _ _ _ _ H) as (h & nx & ids & -> & R).
    unfold delitem_int, oncore, zoom, sl_vt, bind, get, liftr, ret, raise in E. cbn [vt_get vt_put vt_delete] in E.
    unfold del_body. run. fp. rewrite F1. run. fp. run.
    destruct (in_or_out z (len c)) as [Hin|Hout].
    - destruct (pos_of_ok c z HC Hin) as (p & k & c1 & E1 & Ht & Hloc). rewrite E1 in E.
      destruct (pos_enough n z c c1 (p, k) Hc Hn E1) as (Hc1 & Hn1 & _).
      eapply wp_mono; [apply (src_pos lt eq n d L X I _ c c1 z p k H E1 Hn HC)|].
      cbv beta. intros r s' (-> & H'). destruct (holds_rep _ _ _ _ _ H') as (h1 & nx1 & ids1 & -> & R1).
      run. cbn [bind_names bind_name]. run. fp. rewrite F2. run. fp. run. fp. run.
      destruct (locate_get _ _ _ _ Hloc) as (l & Hgp & _ & Hkl & _). destruct (getn_has l k Hkl) as (x & Hx).
      cbn [fst snd] in E. rewrite <- (touch_lists _ _ Ht) in Hgp.
      eapply wp_mono; [apply (src_del_at lt eq n d L X I _ c1 _ _ l x Hc1 Hn1 H' Hgp Hx)|].
      cbv beta. intros r s' (-> & c2 & E2 & H2). rewrite E2 in E. injection E as <- <-. run. split; [|exact H2].
      eexists. split; [reflexivity|]. fp. split; assumption.
    - rewrite (pos_of_err c z HC Hout) in E. injection E as <- <-.
      eapply wp_mono; [apply (src_pos_out lt eq n d L X I _ c z H HC Hout)|].
      cbv beta. intros r s' (-> & H'). run. split; [reflexivity|exact H'].
  Qed.

  Lemma src_del_loop : forall zs (c : core V V), LInv c -> exists n0, forall n d L X I en s, n0 <= n -> holds L X I s c ->
    find "_pos" en = Some (VMeth "_pos") -> find "_delete" en = Some (VMeth "_delete") ->
    wp (for_loop (map VInt zs) (fun v en => en' <- assign lt eq (call lt eq klass n (S (S d))) (EName "index") v en ;;
                                            exec lt eq (call lt eq klass n (S (S d))) n del_body en') en) s
       (fun r s' => match fst (forM del1 zs c) with Ok _ => exists en', r = Ok (Go en') | Err e => r = Err e end /\
                    holds L X I s' (snd (forM del1 zs c))).
  Proof.
    induction zs as [|z zs IH]; intros c HI.
    - exists 0. intros n d L X I en s _ H _ _. cbn [map for_loop]. apply wp_ret. split; [eexists; reflexivity|exact H].
    - pose proof (del_inv z c HI) as HI1. destruct (enough_some c) as (n1 & Hn1). destruct (IH _ HI1) as (n2 & Hn2).
      exists (Nat.max n1 n2). intros n d L X I en s Hn H F1 F2. cbn [map for_loop forM]. apply wp_bind.
      eapply wp_mono; [exact (src_del_body n d L X I s c z en (proj1 HI) (Hn1 n ltac:(lia)) H F1 F2)|]. cbv beta.
      assert (Em : (del1 z ;;; forM del1 zs) c = match del1 z c with (Ok _, c1) => forM del1 zs c1 | (Err e, c1) => (Err e, c1) end) by reflexivity.
      rewrite Em. clear Em. destruct (del1 z c) as [[u|e] c1]; cbn [fst snd] in *.
      + intros r s' ((en' & -> & G1 & G2) & H'). cbv iota. apply Hn2; [lia|exact H'|exact G1|exact G2].
      + intros r s' (-> & H'). split; [reflexivity|exact H'].
  Qed.

  Lemma src_rebuild n d L X I s (c : core V V) vs q en : 1 <= load c -> bulk_n ltb eqb (mkcore [] [] [] 0 0 (load c)) vs n -> holds L X I s c ->
    heap s q = map VElt vs -> q <> L -> q <> X -> q <> I -> find "self" en = Some VSelf -> find "values" en = Some (VList q) ->
    wp (exec lt eq (call lt eq klass n (S (S (S d)))) n
         (SSeq (SExpr (ECall (EAttr (EName "self") "_clear") [])) (SReturn (ECall (EAttr (EName "self") "_update") [EName "values"]))) en) s
       (fun r s' => r = Ok (Done VNone) /\ holds L X I s' (snd (sl_update lt vs (mkcore [] [] [] 0 0 (load c))))).
  Proof.
    intros Hld Hn H Hh Q1 Q2 Q3 F1 F2. destruct (holds_rep _ _ _ _ _ H) as (h & nx & ids & -> & R). cbn [heap] in Hh.
    pose proof (rep_dist _ _ _ _ _ _ _ _ _ R) as (P1 & P2 & P3 & _).
    run. rewrite F1. run.
    eapply wp_mono; [apply (src_clear_at lt eq n (S (S d)) L X I h nx (len c) (load c) (offset c)); assumption|].
    cbv beta. intros r s' (-> & ->). run. rewrite F1. run. rewrite F2. run.
    eapply wp_mono; [apply (src_update ltb eqb HT n d L X I _ (mkcore [] [] [] 0 0 (load c)) vs q "_update" (or_intror (or_introl eq_refl)) (empty_inv ltb _ Hld) Hn)|].
    - exact (rep_holds L X I _ _ _ _ _ _ 0 (load c) 0 (rep_clear _ _ _ _ _ _ _ _ _ R)).
    - cbn [heap]. rewrite !on_other by assumption. exact Hh.
    - cbv beta. intros r s' (-> & H'). run. split; [reflexivity|exact H'].
  Qed.

  Ltac upto_clear := cbv beta iota; repeat lazymatch goal with |- wp (exec _ _ _ _ (SSeq (SExpr _) (SReturn _)) _) _ _ => fail | _ => ev end.

  Lemma src_del_slice sl (c : core V V) : LInv c -> exists n0, forall n d L X I s, n0 <= n -> holds L X I s c ->
    wp (call lt eq klass n (S (S (S (S (S (S d)))))) "__delitem__" [VSlice sl]) s
       (fun r s' => r = rmap (fun _ => VNone) (fst (delitem_slice (sl_vt lt) sl c)) /\ holds L X I s' (snd (delitem_slice (sl_vt lt) sl c))).
  Proof.
    intros HI. pose proof (proj1 HI) as Hc. pose proof (lshape_core _ Hc) as HC. pose proof (lshape_load _ Hc) as Hld.
    unfold delitem_slice. set (del := forM _). change (oncore (sl_vt lt) get) with (@get (core V V)). rewrite bind_get.
    destruct (slice_indices sl (len c)) as [[[start stop] step]|e] eqn:Es.
    2:{ exists 0. intros n d L X I s _ H. enter. destruct (holds_rep _ _ _ _ _ H) as (h & nx & ids & -> & R). run.
      destruct (Z.ltb_spec (Z.of_nat (len c)) 0) as [Hneg|_]; [lia|]. run. rewrite Nat2Z.id, Es. run. split; [reflexivity|exact H]. }
    rewrite (bind_lift (Ok (start, stop, step)) _ c _ eq_refl). cbv beta iota zeta.
    destruct (slice_indices_Ok _ _ _ _ _ Es) as (Hst0 & Hpos & Hnegs).
    set (zs := if (0 <? step)%Z then rev (rangez start stop step) else rangez start stop step).
    destruct (enough_some c) as (n1 & Hn1). destruct (src_del_loop zs c HI) as (n2 & Hn2).
    destruct (islice_ok c None (Some start) false HC) as (l1 & _ & _ & _ & Es1).
    destruct (islice_ok c (Some stop) None false HC) as (l2 & _ & _ & _ & Es2).
    destruct (bulk_some ltb eqb HT (mkcore [] [] [] 0 0 (load c)) l1 (empty_inv ltb _ Hld)) as (n3 & Hn3).
    destruct (bulk_some ltb eqb HT (mkcore [] [] [] 0 0 (load c)) (l1 ++ l2) (empty_inv ltb _ Hld)) as (n4 & Hn4).
    exists (n1 + n2 + n3 + n4). intros n d L X I s Hn H.
    specialize (Hn1 n ltac:(lia)). specialize (Hn3 n ltac:(lia)). specialize (Hn4 n ltac:(lia)).
    enter. destruct (holds_rep _ _ _ _ _ H) as (h & nx & ids & -> & R).
    match goal with |- wp _ ?s0 _ => set (ss := s0) in * end. unfold ss. run.
    destruct (Z.ltb_spec (Z.of_nat (len c)) 0) as [Hneg|_]; [lia|]. run. rewrite Nat2Z.id, Es. run. cbn [bind_names bind_name]. upto_if. names.
    set (en1 := [("self", VSelf); ("index", VSlice sl); ("start", VInt start); ("stop", VInt stop); ("step", VInt step)]) in *.
    assert (Hloop : wp (exec lt eq (call lt eq klass n (S (S (S (S (S d)))))) n del_tail en1) ss
        (fun r s' => wrap r = rmap (fun _ => VNone) (fst (del zs c)) /\ holds L X I s' (snd (del zs c)))).
    { unfold del_tail, en1, ss, zs in *. run. rewrite (proj2 (Z.eqb_neq step 0) Hst0). run.
      change (fun x : Z => @VInt V x) with (@VInt V) in *.
      destruct (0 <? step)%Z.
      - run. cbn [bind_names bind_name]. run. names. run. hp. rewrite <- map_rev.
        assert (H0 : holds L X I (mkst (on (on h nx (map VInt (rev (rangez start stop step)))) nx []) (S nx) (slots (len c) (load c) L X I (offset c))) c).
        { destruct (yields_end L X I c h nx (on (on h nx (map VInt (rev (rangez start stop step)))) nx []) (S nx) nx [] H) as (q & _ & _ & G);
            [intros x Hx; hp; reflexivity|lia|apply on_same|exact G]. }
        eapply wp_mono; [apply (Hn2 n (S (S (S d))) L X I); [lia|exact H0|reflexivity|reflexivity]|]. cbv beta. unfold del.
        destruct (forM del1 _ c) as [[u|e] c1]; cbn [fst snd rmap].
        + intros r s' ((en' & ->) & H'). split; [reflexivity|exact H'].
        + intros r s' (-> & H'). split; [reflexivity|exact H'].
      - run. cbn [bind_names bind_name]. run. names. run.
        eapply wp_mono; [apply (Hn2 n (S (S (S d))) L X I); [lia|exact H|reflexivity|reflexivity]|]. cbv beta. unfold del.
        destruct (forM del1 _ c) as [[u|e] c1]; cbn [fst snd rmap].
        + intros r s' ((en' & ->) & H'). split; [reflexivity|exact H'].
        + intros r s' (-> & H'). split; [reflexivity|exact H']. }
    destruct ((step =? 1)%Z && (start <? stop)%Z) eqn:E1.
    2:{ eapply wp_mono with (P := fun r s' => r = Ok (Go en1) /\ s' = ss).
        { unfold en1, ss. run. destruct (step =? 1)%Z; cbn [andb] in E1; run; [rewrite E1; run|]; split; reflexivity. }
        cbv beta. intros r s' (-> & ->). exact Hloop. }
    apply andb_true_iff in E1. destruct E1 as (Ea & Eb). apply Z.eqb_eq in Ea. subst step.
    match goal with |- wp _ _ ?Q => set (QQ := Q) end.
    unfold en1. run. change (1 =? 1)%Z with true. run. rewrite Eb. run.
    destruct ((start =? 0)%Z && (stop =? Z.of_nat (len c))%Z) eqn:E2.
    { apply andb_true_iff in E2. destruct E2 as (Ea & Ec). rewrite Ea. run. rewrite Ec. run.
      eapply wp_mono; [exact (src_clear lt eq n (S (S (S (S d)))) L X I ss c "_clear" (or_intror (or_introl eq_refl)) H)|].
      cbv beta. intros r s' (-> & H'). run. unfold QQ. split; [reflexivity|exact H']. }
    destruct (Z.leb_spec (Z.of_nat (len c)) (8 * (stop - start))) as [E3|E3].
    2:{ destruct (start =? 0)%Z; cbn [andb] in E2; run; [rewrite E2; run|]; rewrite (proj2 (Z.leb_gt _ _) E3); run; exact Hloop. }
    set (cA := call lt eq klass n (S (S (S (S (S d)))))) in *.
    match goal with |- context [SSeq (SAssign (EName "values") ?e) ?b] => set (bb := SSeq (SAssign (EName "values") e) b) end.
    assert (Hgoal : wp (exec lt eq cA n bb en1) ss QQ).
    2:{ destruct (start =? 0)%Z; cbn [andb] in E2; run; [rewrite E2; run|]; rewrite (proj2 (Z.leb_le _ _) E3); run; exact Hgoal. }
    clear Hloop.
    set (slA := mkslice None (Some start) None) in *. set (slB := mkslice (Some stop) None None) in *.
    destruct (getitem_slice_ok c slA HC) as (c1 & G1 & T1). rewrite Es1 in G1. pose proof (lshape_touch _ _ Hc T1) as Hc1.
    destruct (getitem_slice_ok c1 slB (lshape_core _ Hc1)) as (c2 & G2 & T2). rewrite (touch_contents _ _ T1), Es2 in G2.
    pose proof (touch_len _ _ T1) as Hlen1.
    assert (Hl1 : load c1 = load c) by (clear - T1; destruct T1 as (? & ? & -> & _); reflexivity).
    assert (Hl2 : load c2 = load c) by (rewrite <- Hl1; clear - T2; destruct T2 as (? & ? & -> & _); reflexivity).
    destruct (rep_dist _ _ _ _ _ _ _ _ _ R) as (_ & _ & _ & _ & _ & _ & _ & B1 & B2 & B3 & _).
    unfold bb, en1, ss. run.
    eapply wp_mono; [exact (src_slice lt eq n d L X I ss c slA "_getitem" (or_intror (or_introl eq_refl)) Hc Hn1 H)|].
    rewrite G1. cbv beta. intros r s' Hg1. pose proof Hg1 as ((q & -> & Hq & Hh) & H1 & St1 & _ & Hn1').
    cbn [fst snd] in Hh, H1, Hn1'.
    destruct (holds_rep _ _ _ _ _ H1) as (h1 & nx1 & ids1 & -> & R1). cbn [heap next] in Hq, Hh. run.
    match goal with H1 : holds L X I ?s0 c1 |- _ => set (s1 := s0) in * end.
    cbn [next] in Hq. change (next ss) with nx in *.
    assert (Qn : q <> L /\ q <> X /\ q <> I) by lia. destruct Qn as (Q1 & Q2 & Q3).
    assert (Em : forall vs, (vt_clear (sl_vt lt) ;;; vt_update (sl_vt lt) vs) c1 = sl_update lt vs (mkcore [] [] [] 0 0 (load c)))
      by (intros vs; rewrite <- Hl1; reflexivity).
    assert (Em2 : forall vs, (vt_clear (sl_vt lt) ;;; vt_update (sl_vt lt) vs) c2 = sl_update lt vs (mkcore [] [] [] 0 0 (load c)))
      by (intros vs; rewrite <- Hl2; reflexivity).
    assert (Eu : forall vs, fst (sl_update lt vs (mkcore [] [] [] 0 0 (load c))) = Ok tt).
    { intros vs. destruct (empty_inv ltb _ Hld) as [HE1 HE2]. destruct (sl_update_ok ltb (to_swo HT) vs _ HE1 HE2) as (c' & E & _). rewrite E. reflexivity. }
    assert (O1 : oncore (sl_vt lt) (getitem_slice slA) c = (Ok l1, c1)) by (unfold oncore, zoom; cbn [sl_vt vt_get vt_put]; rewrite G1; reflexivity).
    assert (O2 : oncore (sl_vt lt) (getitem_slice slB) c1 = (Ok l2, c2)) by (unfold oncore, zoom; cbn [sl_vt vt_get vt_put]; rewrite G2; reflexivity).
    assert (HQ : forall s', holds L X I s' (snd (sl_update lt (if (stop <? Z.of_nat (len c))%Z then l1 ++ l2 else l1) (mkcore [] [] [] 0 0 (load c)))) ->
      QQ (Ok (Done VNone)) s').
    { intros s' Hs. unfold QQ. rewrite ?E2, ?(proj2 (Z.leb_le _ _) E3). cbv iota. rewrite (bind_ok _ _ _ _ _ O1).
      destruct (stop <? Z.of_nat (len c))%Z.
      - match goal with |- context [bind ?m ?k c1] => assert (O3 : m c1 = (Ok (l1 ++ l2), c2)) by (rewrite (bind_ok _ _ _ _ _ O2); reflexivity);
          rewrite (bind_ok _ _ _ _ _ O3) end. rewrite Em2, Eu. split; [reflexivity|exact Hs].
      - match goal with |- context [bind (ret l1) ?k c1] => change (bind (ret l1) k c1) with (k l1 c1) end. cbv beta.
        rewrite Em, Eu. split; [reflexivity|exact Hs]. }
    clearbody QQ. rewrite <- Hlen1 in HQ. rewrite <- Hl1 in Hn3. rewrite <- Hl2 in Hn4.
    destruct (Z.ltb_spec stop (Z.of_nat (len c1))) as [E4|E4].
    - unfold cA, s1. run.
      eapply wp_mono; [exact (src_slice lt eq n d L X I s1 c1 slB "_getitem" (or_intror (or_introl eq_refl)) Hc1 Hn1' H1)|].
      rewrite G2. cbv beta. intros r s' Hg2. pose proof Hg2 as ((q2 & -> & Hq2 & Hh2) & H2 & St2 & _ & Hn2').
      cbn [fst snd] in Hh2, H2, Hn2'. pose proof (proj2 St2 q ltac:(unfold s1; cbn [next]; lia) Q3) as Hk. change (heap s1 q) with (h1 q) in Hk.
      destruct (holds_rep _ _ _ _ _ H2) as (h2 & nx2 & ids2 & -> & R2). cbn [heap next] in *. upto_clear.
      rewrite Hk, Hh, Hh2, <- map_app.
      eapply wp_mono; [eapply (src_rebuild n (S (S d)) L X I _ c2 (l1 ++ l2) q)|].
      + rewrite Hl2. exact Hld.
      + exact Hn4.
      + exact (holds_over L X I ss _ c c2 q (map VElt (l1 ++ l2)) H H2 (still_trans _ _ _ _ St1 St2) (proj1 Hq)).
      + apply on_same.
      + exact Q1.
      + exact Q2.
      + exact Q3.
      + reflexivity.
      + reflexivity.
      + cbv beta. intros r s' (-> & H'). apply HQ. rewrite <- Hl2. exact H'.
    - unfold cA, s1. cbn [exec]. apply wp_ret. cbv beta iota.
      eapply wp_mono; [eapply (src_rebuild n (S (S d)) L X I _ c1 l1 q)|].
      + rewrite Hl1. exact Hld.
      + exact Hn3.
      + exact H1.
      + exact Hh.
      + exact Q1.
      + exact Q2.
      + exact Q3.
      + reflexivity.
      + reflexivity.
      + cbv beta. intros r s' (-> & H'). apply HQ. rewrite <- Hl1. exact H'.
  Qed.
End DelSlice.

(** * update, _reset, __iadd__ and __imul__ of the text (proofs) *)
From Coq Require Import String Permutation.
From Verif Require Import IndexFacts SliceFacts CoreFacts Shape VtFacts ListFacts ListSim Spec SpecFacts History HistFacts.
From Verif Require Import PyBase BaseFacts Model SourceSyntax SourceText SourceSem SourceRep SourceFacts SourceLoops SourceBuild SourceMoves SourceTree SourceMethods SourceChange SourceAdd SourcePop SourceFill.
Local Open Scope string_scope.
Local Open Scope nat_scope.
Local Open Scope list_scope.
Local Unset Implicit Arguments.

Section Reduce.
  Context {V : Type} (lt eq : V -> V -> res bool).

  (** [reduce(iadd, lists, acc)] *)
  Lemma src_reduce r nx at_ : forall ids (ls : list (list V)) h acc, h r = map VElt acc -> ~ In r ids -> map h ids = map (map VElt) ls ->
    exists h', reduce_with "iadd" (map VList ids) (VList r) (mkst h nx at_) = (Ok (VList r), mkst h' nx at_) /\
      h' r = map VElt (acc ++ concat ls) /\ (forall q, q <> r -> h' q = h q).
  Proof.
    induction ids as [|id ids IH]; intros [|l ls] h acc Hr Hn Hm; try discriminate Hm.
    - exists h. cbn [concat]. rewrite app_nil_r. auto.
    - cbn [map] in Hm. injection Hm as H1 H2. cbn [In] in Hn.
      destruct (IH ls (on h r (map VElt (acc ++ l))) (acc ++ l)) as (h' & E & Hr' & Hk).
      + apply on_same.
      + tauto.
      + rewrite map_on_out by tauto. exact H2.
      + exists h'. split; [|split].
        * cbn [map reduce_with prim String.eqb Ascii.eqb Bool.eqb inplace elems]. unfold bind, load_at, store, ret. cbn [heap next attrs].
          rewrite H1, Hr, <- map_app. exact E.
        * cbn [concat]. rewrite app_assoc. exact Hr'.
        * intros q Hq. rewrite Hk, on_other by exact Hq. reflexivity.
  Qed.

  Lemma src_clear_at n d L X I h nx ln ld off : L <> X -> L <> I -> X <> I ->
    wp (call lt eq klass n (S d) "_clear" []) (mkst h nx (slots ln ld L X I off))
       (fun r s' => r = Ok VNone /\ s' = mkst (on (on (on h L []) X []) I []) nx (slots 0 ld L X I 0)).
  Proof.
    intros P1 P2 P3. enter. run; cutall; run; cutall; run; cutall; run. split; reflexivity.
  Qed.
End Reduce.

Lemma nodup_snoc {A} (l : list A) x : NoDup l -> ~ In x l -> NoDup (l ++ [x]).
Proof.
  intros H Hx. eapply Permutation.Permutation_NoDup; [apply Permutation.Permutation_cons_append|]. constructor; assumption.
Qed.

Lemma concat_times {A B} (f : A -> B) l : forall k, concat (repeat (map f l) k) = map f (concat (repeat l k)).
Proof. induction k as [|k IH]; [reflexivity|]. cbn [repeat concat]. rewrite map_app, IH. reflexivity. Qed.

Section Update.
  Context {V : Type} (ltb eqb : V -> V -> bool) (HT : TotalOrder ltb eqb).
  Notation lt := (total2 ltb).
  Notation eq := (total2 eqb).
  Notation LInv := (LInv ltb).
  Let HO := to_swo HT.

  (** [for val in values: _add(val)] *)
  Lemma src_adds : forall vs c, LInv c -> exists c', forM (sl_add lt) vs c = (Ok tt, c') /\
    exists n0, forall n d L X I en s, n0 <= n -> holds L X I s c -> find "_add" en = Some (VMeth "add") ->
      wp (for_loop (map VElt vs)
            (fun v en => en' <- assign lt eq (call lt eq klass n (S (S d))) (EName "val") v en ;;
                         exec lt eq (call lt eq klass n (S (S d))) n (SExpr (ECall (EName "_add") [EName "val"])) en') en) s
         (fun r s' => (exists en', r = Ok (Go en')) /\ holds L X I s' c').
  Proof.
    induction vs as [|v vs IH]; intros c HI.
    - exists c. split; [reflexivity|]. exists 0. intros n d L X I en s _ H _. cbn [map for_loop]. apply wp_ret. split; [eexists; reflexivity|exact H].
    - destruct (sl_step_inv ltb eqb HT 1 (le_n 1) (LAdd v) c HI Logic.I) as (c1 & E & HI1 & _).
      assert (E1 : sl_add lt v c = (Ok tt, c1)).
      { cbn [sl_step sp_step fst] in E. unfold observe in E. destruct (sl_add lt v c) as [[[]|e] c2]; [|discriminate]. congruence. }
      destruct (IH c1 HI1) as (c' & E2 & n1 & Hn1). destruct (enough_some c) as (n2 & Hn2).
      exists c'. split; [cbn [forM]; unfold bind; rewrite E1; exact E2|].
      exists (Nat.max n1 n2). intros n d L X I en s Hn H F. cbn [map for_loop].
      apply wp_bind. apply wp_bind. cbn [assign]. apply wp_ret. cbv beta iota.
      assert (Fa : find "_add" (put "val" (VElt v) en) = Some (VMeth "add")) by (rewrite find_put_other by reflexivity; exact F).
      apply wp_bind. cbn [eval]. apply wp_bind. rewrite Fa. apply wp_ret. cbv beta iota.
      apply wp_bind. apply wp_bind. rewrite find_put. apply wp_ret. cbv beta iota. apply wp_bind, wp_ret. cbv beta iota. apply wp_ret. cbv beta iota.
      cbn [apply].
      eapply wp_mono; [exact (src_add lt eq n d v L X I s c c1 (proj1 HI) (Hn2 n ltac:(lia)) H E1)|].
      cbv beta. intros r s' (-> & H'). apply wp_ret. cbv beta iota. apply Hn1; [lia|exact H'|exact Fa].
  Qed.

  Definition update_if : stmt :=
    SIf (EName "_maxes")
      (SIf (ECmp Qge (EBin Omul (ECall (EName "len") [EName "values"]) (ENum 4)) (EAttr (EName "self") "_len"))
        (SSeq (SExpr (ECall (EAttr (EName "_lists") "append") [EName "values"]))
        (SSeq (SAssign (EName "values") (ECall (EName "reduce") [EName "iadd"; EName "_lists"; EList []]))
        (SSeq (SExpr (ECall (EAttr (EName "values") "sort") []))
              (SExpr (ECall (EAttr (EName "self") "_clear") [])))))
        (SSeq (SAssign (EName "_add") (EAttr (EName "self") "add"))
        (SSeq (SFor (EName "val") (EName "values") (SExpr (ECall (EName "_add") [EName "val"])))
              (SReturn ENone)))) SPass.
  Definition update_body : stmt :=
    SSeq (SAssign (EName "_lists") (EAttr (EName "self") "_lists"))
    (SSeq (SAssign (EName "_maxes") (EAttr (EName "self") "_maxes"))
    (SSeq (SAssign (EName "values") (ECall (EName "sorted") [EName "iterable"]))
    (SSeq update_if fill_stmt))).

  Lemma update_lookup name : In name ["update"; "_update"] -> lookup klass 100 name klass = Some ([("iterable", None)], update_body).
  Proof. intros [<-|[<-|[]]]; vm_compute; reflexivity. Qed.

  Definition bulk_n (c : core V V) (vs : list V) (n : nat) : Prop :=
    forall d L X I en s, holds L X I s c -> find "_add" en = Some (VMeth "add") ->
      wp (for_loop (map VElt (sp_sort ltb vs))
            (fun v en => en' <- assign lt eq (call lt eq klass n (S (S d))) (EName "val") v en ;;
                         exec lt eq (call lt eq klass n (S (S d))) n (SExpr (ECall (EName "_add") [EName "val"])) en') en) s
         (fun r s' => (exists en', r = Ok (Go en')) /\ holds L X I s' (snd (forM (sl_add lt) (sp_sort ltb vs) c))).
  Lemma bulk_some c vs : LInv c -> exists n0, forall n, n0 <= n -> bulk_n c vs n.
  Proof.
    intros HI. destruct (src_adds (sp_sort ltb vs) c HI) as (c' & E & n0 & H). exists n0. intros n Hn d L X I en s Hs F.
    rewrite E. exact (H n d L X I en s Hn Hs F).
  Qed.

  Lemma fill_parts (c c' : core V V) vs : lists c = [] -> maxes c = [] -> sl_fill vs c = (Ok tt, c') ->
    exists ls ms, chunks (load c) vs = Ok ls /\ mapR getlast ls = Ok ms /\ c' = mkcore ls ms [] (offset c) (length vs) (load c).
  Proof.
    intros E1 E2 E. unfold sl_fill, modifyR in E. destruct (chunks (load c) vs) as [ls|]; [|discriminate]. cbn [rbind] in E.
    rewrite E1 in E. cbn [app] in E. destruct (mapR getlast ls) as [ms|] eqn:E3; [|discriminate]. cbn [rbind] in E. rewrite E2 in E. cbn [app] in E.
    injection E as <-. exists ls, ms. repeat split. exact E3.
  Qed.

  Lemma src_update n d L X I s c vs q name : In name ["update"; "_update"] -> LInv c -> bulk_n c vs n ->
    holds L X I s c -> heap s q = map VElt vs ->
    wp (call lt eq klass n (S (S (S d))) name [VList q]) s
       (fun r s' => r = Ok VNone /\ holds L X I s' (snd (sl_update lt vs c))).
  Proof.
    intros Hname HI Hn H Hq. destruct (sl_update_ok ltb HO vs c (proj1 HI) (proj2 HI)) as (c' & E & _). rewrite E. cbn [snd].
    eapply call_of; [exact (update_lookup name Hname)|intros; cbn [bind_params app]; reflexivity|].
    destruct (holds_rep _ _ _ _ _ H) as (h & nx & ids & -> & R). pose proof R as (HX & HIx & HL & Hm & Hd & Hf). cbn [heap] in Hq.
    pose proof (rep_dist _ _ _ _ _ _ _ _ _ R) as (P1 & P2 & P3 & P4 & P5 & P6 & P7 & P8 & P9 & P10 & P11).
    unfold sl_update in E. rewrite (bind_lift _ _ _ _ (py_sorted_sp _ HO vs)), bind_get in E.
    pose proof (lshape_load _ (proj1 HI)) as Hld. pose proof (shape_max c (proj1 HI)) as Hlm.
    unfold update_body.
    run. rewrite Hq, elts_map. run. rewrite (py_sorted_sp _ HO vs). run.
    set (vs1 := sp_sort ltb vs) in *. set (h1 := on h nx (map VElt vs1)).
    pose proof (rep_new L X I h nx ids _ _ _ (map VElt vs1) R) as R1. fold h1 in R1.
    assert (Hv1 : h1 nx = map VElt vs1) by apply on_same.
    pose proof R1 as (HX1 & _). unfold update_if. run. rewrite HX1, is_nil_map.
    destruct (is_nil (maxes c)) eqn:En; cbn [negb]; run.
    - apply is_nil_spec in En. assert (El : lists c = []) by (rewrite En in Hlm; destruct (lists c); [reflexivity|discriminate]).
      destruct (fill_parts c c' vs1 El En E) as (ls & ms & E1 & E2 & ->).
      assert (Ei : ids = []) by (apply ids_length in Hm; rewrite El in Hm; destruct ids; [reflexivity|discriminate]). subst ids.
      rewrite El, En in R1.
      eapply wp_mono; [exact (src_fill lt eq _ n L X I h1 (S nx) (index c) (len c) (offset c) (load c) nx vs1 (VList q) ls ms Hld R1 Hv1
        (Nat.lt_succ_diag_r nx) ltac:(lia) ltac:(lia) ltac:(lia) E1 E2)|].
      cbv beta. intros r s' ((en' & ->) & H'). split; [reflexivity|exact H'].
    - rewrite Hv1, map_length. run.
      replace (Z.of_nat (length vs1) * 4)%Z with (Z.of_nat (length vs1 * 4)) by lia. rewrite lez_nat.
      destruct (len c <=? length vs1 * 4).
      + pose proof R1 as (_ & _ & HL1 & Hm1 & _). run. rewrite HL1.
        change [VList nx] with (map (@VList V) [nx]). rewrite <- map_app.
        assert (R2 : rep L X I (on h1 L (map VList (ids ++ [nx]))) (S nx) (ids ++ [nx]) (lists c ++ [vs1]) (maxes c) (index c)).
        { apply (rep_lists L X I h1 (S nx) ids (lists c) (maxes c) (index c) _ _ R1).
          - rewrite !map_app, Hm1. cbn [map]. rewrite Hv1. reflexivity.
          - apply nodup_snoc; [exact P7|]. intros Hi. rewrite Forall_forall in P11. specialize (P11 nx Hi). lia.
          - intros z Hz. apply in_app_iff in Hz. destruct Hz as [Hz|[<-|[]]]; [|lia].
            split; [rewrite Forall_forall in P11; specialize (P11 z Hz); lia|]. repeat split; intros ->; contradiction. }
        revert R2. generalize (on h1 L (map VList (ids ++ [nx]))). intros h2 R2.
        run. pose proof (rep_new _ _ _ _ _ _ _ _ _ [] R2) as R3.
        set (h3 := on h2 (S nx) []) in *. pose proof R3 as (_ & _ & HL3 & Hm3 & _ & Hf3). rewrite HL3.
        pose proof R2 as (_ & _ & _ & _ & _ & Hf2). rewrite Forall_forall in Hf2.
        destruct (src_reduce (S nx) (S (S nx)) (slots (len c) (load c) L X I (offset c)) (ids ++ [nx]) (lists c ++ [vs1]) h3 [])
          as (h4 & E4 & Hr4 & Hk4).
        { apply on_same. } { intros Hi. specialize (Hf2 (S nx) (or_intror (or_intror (or_intror Hi)))). lia. } { exact Hm3. }
        cbn [app] in Hr4. cbn [vnat] in E4. eapply wp_eq; [exact E4|]. run. rewrite Hr4, elts_map. run.
        cbn [modify bind] in E. unfold modify, bind at 1, get in E. cbn [lists set_lists] in E.
        rewrite (py_sorted_sp _ HO (concat (lists c ++ [vs1]))) in E. rewrite (py_sorted_sp _ HO (concat (lists c ++ [vs1]))). run.
        set (vs2 := sp_sort ltb (concat (lists c ++ [vs1]))) in *. set (h5 := on h4 (S nx) (map VElt vs2)).
        eapply wp_mono; [exact (src_clear_at lt eq n (S d) L X I h5 (S (S nx)) (len c) (load c) (offset c) P1 P2 P3)|].
        cbv beta. intros r s' (-> & ->). run.
        assert (R5 : rep L X I h5 (S (S nx)) (ids ++ [nx]) (lists c ++ [vs1]) (maxes c) (index c)).
        { apply (rep_ix_any L X I h2 h5 (S nx) _ _ _ _ _ _ R2); [|  |lia].
          - intros z Hz _. unfold h5, h3 in *. rewrite on_other, Hk4, on_other by lia. reflexivity.
          - unfold h5, h3 in *. rewrite on_other, Hk4, on_other by lia. apply R2. }
        destruct (fill_parts (mkcore [] [] [] 0 0 (load c)) c' vs2 eq_refl eq_refl E) as (ls & ms & E6 & E7 & ->).
        cbn [offset load] in *.
        eapply wp_mono; [apply (src_fill lt eq _ n L X I _ (S (S nx)) [] 0 0 (load c) (S nx) vs2 (VList q) ls ms Hld (rep_clear _ _ _ _ _ _ _ _ _ R5))|].
        * rewrite !on_other by lia. apply on_same.
        * lia.
        * lia.
        * lia.
        * lia.
        * exact E6.
        * exact E7.
        * cbv beta. intros r s' ((en' & ->) & H'). split; [reflexivity|exact H'].
      + run. rewrite Hv1. eapply wp_mono; [apply (Hn d L X I); [|reflexivity]|].
        * pose proof (rep_holds L X I _ _ _ _ _ _ (len c) (load c) (offset c) R1) as G. clear - G. destruct c. exact G.
        * cbv beta. intros r s' ((en' & ->) & H'). fold vs1 in H'. rewrite E in H'. run. split; [reflexivity|exact H'].
  Qed.

  Lemma empty_inv ld : 1 <= ld -> LInv (mkcore [] [] [] 0 0 ld).
  Proof. intros Hl. exact (sl_init_inv ltb ld Hl). Qed.

  Lemma src_iadd n d L X I s c vs q : LInv c -> bulk_n c vs n -> holds L X I s c -> heap s q = map VElt vs ->
    wp (call lt eq klass n (S (S (S (S d)))) "__iadd__" [VList q]) s
       (fun r s' => r = Ok VSelf /\ holds L X I s' (snd (sl_update lt vs c))).
  Proof.
    intros HI Hn H Hq. enter. destruct (holds_rep _ _ _ _ _ H) as (h & nx & ids & -> & R).
    run. eapply wp_mono; [exact (src_update n d L X I _ c vs q "_update" (or_intror (or_introl eq_refl)) HI Hn H Hq)|].
    cbv beta. intros r s' (-> & H'). run. split; [reflexivity|exact H'].
  Qed.

  Lemma src_reset n d L X I s c ld : 1 <= ld -> bulk_n (mkcore [] [] [] 0 0 ld) (contents c) n -> holds L X I s c ->
    wp (call lt eq klass n (S (S (S (S d)))) "_reset" [vnat ld]) s
       (fun r s' => r = Ok VNone /\ holds L X I s' (snd (sl_update lt (contents c) (mkcore [] [] [] 0 0 ld)))).
  Proof.
    intros Hld Hn H. enter. destruct (holds_rep _ _ _ _ _ H) as (h & nx & ids & -> & R).
    pose proof R as (_ & _ & HL & Hm & _ & Hf). rewrite Forall_forall in Hf.
    pose proof (rep_dist _ _ _ _ _ _ _ _ _ R) as (P1 & P2 & P3 & P4 & P5 & P6 & P7 & P8 & P9 & P10 & P11).
    run. rewrite on_other, HL by lia.
    destruct (src_reduce nx (S nx) (slots (len c) (load c) L X I (offset c)) ids (lists c) (on h nx []) []) as (h4 & E4 & Hr4 & Hk4).
    { apply on_same. } { intros Hi. specialize (Hf nx (or_intror (or_intror (or_intror Hi)))). lia. }
    { rewrite map_on_out; [exact Hm|]. intros Hi. specialize (Hf nx (or_intror (or_intror (or_intror Hi)))). lia. }
    cbn [app] in Hr4. cbn [vnat] in E4. eapply wp_eq; [exact E4|]. run.
    assert (R4 : rep L X I h4 (S nx) ids (lists c) (maxes c) (index c)).
    { apply (rep_ix_any L X I h h4 nx _ _ _ _ _ _ R); [| |lia].
      - intros z Hz _. rewrite Hk4, on_other by lia. reflexivity.
      - rewrite Hk4, on_other by lia. apply R. }
    eapply wp_mono; [exact (src_clear_at lt eq n (S (S d)) L X I h4 (S nx) (len c) (load c) (offset c) P1 P2 P3)|].
    cbv beta. intros r s' (-> & ->). run.
    eapply wp_mono; [apply (src_update n d L X I _ (mkcore [] [] [] 0 0 ld) (contents c) nx "_update" (or_intror (or_introl eq_refl)) (empty_inv ld Hld) Hn)|].
    - exact (rep_holds L X I _ _ _ _ _ _ 0 ld 0 (rep_clear _ _ _ _ _ _ _ _ _ R4)).
    - cbn [heap]. rewrite !on_other by lia. exact Hr4.
    - cbv beta. intros r s' (-> & H'). run. split; [reflexivity|exact H'].
  Qed.

  Lemma src_imul n d L X I s c z : 1 <= load c -> bulk_n (mkcore [] [] [] 0 0 (load c)) (list_mul (contents c) z) n -> holds L X I s c ->
    wp (call lt eq klass n (S (S (S (S d)))) "__imul__" [VInt z]) s
       (fun r s' => r = Ok VSelf /\ holds L X I s' (snd (sl_update lt (list_mul (contents c) z) (mkcore [] [] [] 0 0 (load c))))).
  Proof.
    intros Hld Hn H. enter. destruct (holds_rep _ _ _ _ _ H) as (h & nx & ids & -> & R).
    pose proof R as (_ & _ & HL & Hm & _ & Hf). rewrite Forall_forall in Hf.
    pose proof (rep_dist _ _ _ _ _ _ _ _ _ R) as (P1 & P2 & P3 & P4 & P5 & P6 & P7 & P8 & P9 & P10 & P11).
    run. rewrite on_other, HL by lia.
    destruct (src_reduce nx (S nx) (slots (len c) (load c) L X I (offset c)) ids (lists c) (on h nx []) []) as (h4 & E4 & Hr4 & Hk4).
    { apply on_same. } { intros Hi. specialize (Hf nx (or_intror (or_intror (or_intror Hi)))). lia. }
    { rewrite map_on_out; [exact Hm|]. intros Hi. specialize (Hf nx (or_intror (or_intror (or_intror Hi)))). lia. }
    cbn [app] in Hr4. cbn [vnat] in E4. eapply wp_eq; [exact E4|]. run.
    rewrite Hr4.
    assert (Em : concat (repeat (map (@VElt V) (concat (lists c))) (Z.to_nat z)) = map VElt (list_mul (contents c) z)).
    { unfold list_mul, contents. apply concat_times. }
    rewrite Em.
    assert (R4 : rep L X I h4 (S nx) ids (lists c) (maxes c) (index c)).
    { apply (rep_ix_any L X I h h4 nx _ _ _ _ _ _ R); [| |lia].
      - intros y Hy _. rewrite Hk4, on_other by lia. reflexivity.
      - rewrite Hk4, on_other by lia. apply R. }
    pose proof (rep_new _ _ _ _ _ _ _ _ _ (map VElt (list_mul (contents c) z)) R4) as R5.
    set (h5 := on h4 (S nx) (map VElt (list_mul (contents c) z))) in *.
    eapply wp_mono; [exact (src_clear_at lt eq n (S (S d)) L X I h5 (S (S nx)) (len c) (load c) (offset c) P1 P2 P3)|].
    cbv beta. intros r s' (-> & ->). run.
    eapply wp_mono; [apply (src_update n d L X I _ (mkcore [] [] [] 0 0 (load c)) (list_mul (contents c) z) (S nx) "_update" (or_intror (or_introl eq_refl)) (empty_inv _ Hld) Hn)|].
    - exact (rep_holds L X I _ _ _ _ _ _ 0 (load c) 0 (rep_clear _ _ _ _ _ _ _ _ _ R5)).
    - cbn [heap]. rewrite !on_other by lia. apply on_same.
    - cbv beta. intros r s' (-> & H'). run. split; [reflexivity|exact H'].
  Qed.
End Update.

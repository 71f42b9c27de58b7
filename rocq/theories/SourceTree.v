From Coq Require Import String.
From Verif Require Import PyBase BaseFacts Model SourceSyntax SourceText SourceSem SourceRep SourceFacts SourceLoops SourceBuild.
Local Open Scope string_scope.
Local Open Scope nat_scope.
Local Open Scope list_scope.
Local Unset Implicit Arguments.
Lemma pair_sums_le : forall n l, length l <= n -> length (pair_sums l) <= length l.
Proof.
  induction n as [|n IH]; intros l H; [destruct l; cbn in *; lia|].
  destruct l as [|a [|b t]]; cbn in *; try lia. specialize (IH t). lia.
Qed.

Section Main.
  Context {V : Type} (lt eq : V -> V -> res bool).

  Lemma src_build_still n d L X I s (c c' : core V V) :
    holds L X I s c -> build_index c = (Ok tt, c') -> build_fuel c <= n ->
    wp (call lt eq klass n (S d) "_build_index" []) s (fun r s' => r = Ok VNone /\ holds L X I s' c' /\ still I s s').
  Proof.
    intros H Hb Hn. enter.
    destruct (holds_inv _ _ _ _ _ H) as (h & nx & ids & -> & HX & HI & HL & Hm & Hd & Hf). clear H.
    unfold build_index, modifyR in Hb.
    set (row0 := map (@length V) (lists c)) in *.
    assert (HIn : I < nx) by (rewrite Forall_forall in Hf; apply Hf; right; right; left; reflexivity).
    run. rewrite HL. eapply wp_eq; [apply (lens_eq _ (lists c)); exact Hm|]. run. fold row0.
    match goal with |- wp _ (mkst ?x _ _) _ => set (h1 := x) end.
    match goal with |- context [length ?x] => change x with (h1 (S nx)) end.
    assert (Hlow1 : forall q, q < nx -> h1 q = h q) by (intros q Hq; unfold h1; hp; reflexivity).
    assert (Hr0 : h1 (S nx) = map vnat row0) by (unfold h1; hp; reflexivity).
    clearbody h1. rewrite Hr0, map_length. change 1%Z with (Z.of_nat 1) at 1. rewrite eqz_nat.
    destruct (length row0 =? 1).
    { run. injection Hb as <-. rewrite Hr0. split; [reflexivity|].
      apply (holds_ix2 L X I h nx _ _ ids c (len c) (load c) row0 0); try assumption; try reflexivity; try lia.
      - intros q Hq Hne. rewrite on_other by exact Hne. apply Hlow1, Hq.
      - apply on_same. }
    cbv iota. repeat lazymatch goal with |- wp (exec _ _ _ _ (SAssign (EName "row1") _) _) _ _ => fail | _ => ev end.
    ev. ev.
    eapply wp_mono; [apply (pair_row lt eq (call lt eq klass n d) _ (S (S nx)) row0); try reflexivity|].
    { cbn [heap]. rewrite on_same. exact Hr0. }
    { cbn [next]. lia. }
    cbv beta. intros x [h2 nx2 a2] (r1 & -> & Hr1 & Hh & Ha & Hk). cbn [heap next attrs] in *. subst a2.
    run. rewrite Hk by lia. rewrite on_other, Hr0, map_length, odd_land, Nat.negb_even by lia.
    set (en1 := [("self", VSelf); ("row0", VList (S nx)); ("head", VIter (S (S nx))); ("tail", VIter (S (S nx))); ("row1", VList r1)]) in *.
    apply (wp_mono _ _ (fun r s' => r = Ok (Go en1) /\ exists h3 row1, s' = mkst h3 nx2 (slots (len c) (load c) L X I (offset c)) /\
      (if Nat.odd (length row0) then let! x := getlast row0 in Ok (pair_sums row0 ++ [x]) else Ok (pair_sums row0)) = Ok row1 /\
       h3 r1 = map vnat row1 /\ (forall q, q < nx2 -> q <> r1 -> h3 q = h2 q))).
    { unfold en1. destruct (Nat.odd (length row0)) eqn:Eo.
      - run. rewrite Hk by lia. rewrite on_other, Hr0, getz_map by lia. unfold getlast in *. change (- (1))%Z with (-1)%Z.
        destruct (getz row0 (-1)) as [x|] eqn:Ex.
        2:{ exfalso. cbn [rbind] in Hb. destruct (length row0 =? 1); discriminate. }
        run. split; [reflexivity|]. exists (on h2 r1 (map vnat (pair_sums row0 ++ [x]))), (pair_sums row0 ++ [x]).
        rewrite Hh, map_app. cbn [rbind]. split; [reflexivity|]. split; [reflexivity|]. split; [apply on_same|].
        intros q _ Hq. apply on_other, Hq.
      - run. split; [reflexivity|]. exists h2, (pair_sums row0). auto. }
    cbv beta. intros r s' (-> & h3 & row1 & -> & Er & Hh1 & Hk1). rewrite Er in Hb. cbn [rbind] in Hb. cbv iota. unfold en1.
    assert (Hlow3 : forall q, q < nx -> h3 q = h q).
    { intros q Hq. rewrite Hk1, Hk by lia. hp. apply Hlow1, Hq. }
    assert (Hr03 : h3 (S nx) = map vnat row0).
    { rewrite Hk1, Hk by lia. hp. exact Hr0. }
    assert (Hlen1 : length row1 <= S (length row0)).
    { destruct (Nat.odd (length row0)); [destruct (getlast row0); [|discriminate]|]; injection Er as <-;
        rewrite ?app_length; pose proof (pair_sums_le _ row0 (le_n _)); cbn [length]; lia. }
    clear Hk Hk1 Hh Hlow1 Hr0 h1 h2 Er.
    run. rewrite Hh1, map_length. change 1%Z with (Z.of_nat 1) at 1. rewrite eqz_nat.
    destruct (Nat.eqb_spec (length row1) 1) as [E1|E1].
    { run. rewrite Hh1, Hr03, <- map_app, on_same. injection Hb as <-. split; [reflexivity|].
      apply (holds_ix2 L X I h nx _ _ ids c (len c) (load c) (row1 ++ row0) 1); try assumption; try reflexivity; try lia.
      - intros q Hq Hne. rewrite on_other by exact Hne. hp. apply Hlow3, Hq.
      - apply on_same. }
    destruct (Nat.eqb_spec (length row1) 0) as [E0|E0]; [discriminate|].
    set (size := 2 ^ (Nat.log2 (length row1 - 1) + 1)) in *.
    assert (Hsize : 1 <= size) by (unfold size; pose proof (Nat.pow_nonzero 2 (Nat.log2 (length row1 - 1) + 1)); lia).
    run. change (2 =? 2)%Z with true. cbv iota. rewrite Hh1, map_length.
    replace (Z.of_nat (length row1) - 1)%Z with (Z.of_nat (length row1 - 1)) by lia.
    destruct (Z.leb_spec (Z.of_nat (length row1 - 1)) 0); [lia|]. run. rewrite log2_nat.
    replace (Z.of_nat (Nat.log2 (length row1 - 1)) + 1)%Z with (Z.of_nat (Nat.log2 (length row1 - 1) + 1)) by lia.
    destruct (Z.ltb_spec (Z.of_nat (Nat.log2 (length row1 - 1) + 1)) 0); [lia|]. run.
    replace (2 ^ Z.of_nat (Nat.log2 (length row1 - 1) + 1))%Z with (Z.of_nat size)
      by (unfold size; rewrite Nat2Z.inj_pow; reflexivity).
    rewrite Hh1, map_length. replace (Z.to_nat (Z.of_nat size - Z.of_nat (length row1))) with (size - length row1) by lia.
    run. hp. rewrite Hh1.
    unfold build_index_sized in Hb. set (row1' := row1 ++ repeat 0 (size - length row1)) in *. cbv zeta in Hb.
    destruct (tree_rows (S (length row1')) row1') as [rows|] eqn:Et; [|discriminate]. cbn [rbind fst snd] in Hb. injection Hb as <-.
    match goal with |- wp _ (mkst ?x _ _) _ => set (h4 := x) end.
    assert (Hlow4 : forall q, q < nx -> h4 q = h q) by (intros q Hq; unfold h4; hp; apply Hlow3, Hq).
    assert (Hr04 : h4 (S nx) = map vnat row0) by (unfold h4; hp; exact Hr03).
    assert (Hr14 : h4 r1 = map vnat row1').
    { unfold h4; hp. unfold row1'. rewrite map_app. f_equal. clear. induction (size - length row1) as [|k IH]; [reflexivity|]. cbn [repeat map]. rewrite <- IH. reflexivity. }
    assert (HT4 : h4 (S nx2) = map VList ([S nx] ++ [r1])) by (unfold h4; hp; reflexivity).
    clearbody h4. clear Hlow3 Hr03 Hh1 h3.
    match goal with |- wp (exec ?a ?b ?iv ?n (SWhile ?cn ?bd) ?en) ?s ?Q =>
      change (wp (while_loop n (eval a b iv cn) (exec a b iv n bd) en) s Q) end.
    eapply wp_mono.
    { apply (tree_run lt eq (call lt eq klass n d) n nx (S nx2) (S (length row1')) n row1' rows [S nx] r1 [row0]); try reflexivity; try assumption.
      - unfold row1'. rewrite app_length, repeat_length. unfold build_fuel in Hn.
        assert (length row0 = length (lists c)) by apply map_length.
        assert (size <= 2 ^ (Nat.log2 (length (lists c)) + 1)).
        { apply Nat.pow_le_mono_r; [lia|]. apply Nat.add_le_mono_r, Nat.log2_le_mono. lia. }
        assert (length row1 <= S (2 ^ (Nat.log2 (length (lists c)) + 1))).
        { destruct (Nat.eq_dec (length (lists c)) 0); [lia|].
          pose proof (Nat.log2_spec (length (lists c)) ltac:(lia)) as [_ Hs]. rewrite Nat.add_1_r in *. lia. }
        lia.
      - repeat split; reflexivity.
      - cbn [map]. rewrite <- Hr04. reflexivity.
      - cbn [app next]. repeat constructor; lia.
      - cbn [next]. lia.
      - cbn. lia. }
    cbv beta. intros r [h5 nx5 a5] (en' & all & -> & (K1 & K2 & K3) & G1 & G2 & G3 & G4 & G5 & G6). cbn [heap next attrs] in *. subst a5.
    cbv iota.
    assert (F1 : find "reduce" en' = None) by (rewrite G6; reflexivity).
    assert (F2 : find "iadd" en' = None) by (rewrite G6; reflexivity).
    assert (F3 : find "reversed" en' = None) by (rewrite G6; reflexivity).
    assert (F4 : find "size" en' = Some (VInt (Z.of_nat size))) by (rewrite G6; reflexivity).
    clear G6. run. rewrite F1. run. rewrite F2. run. rewrite F3. run. rewrite G4. run. rewrite G5. run. hp. rewrite G1, <- map_rev.
    eapply wp_mono.
    { apply (reduce_rows I (rev all) (rev ([row0] ++ rows)) (index c)).
      - cbn [heap]. hp. rewrite K3 by exact HIn. rewrite Hlow4 by exact HIn. exact HI.
      - cbn [heap]. rewrite !map_rev, <- G2. f_equal. apply map_ext_in. intros q Hq.
        pose proof (proj1 (Forall_forall _ _) G3 q Hq). cbn in *. hp. reflexivity.
      - rewrite <- in_rev. intros Hin. pose proof (proj1 (Forall_forall _ _) G3 I Hin). cbn in *. lia. }
    cbv beta. intros r [h6 nx6 a6] (-> & J1 & J2 & J3 & J4). cbn [heap next attrs] in *. subst nx6 a6. run.
    rewrite F4. run. rewrite G5. run. split; [reflexivity|].
    replace (Z.of_nat size * 2 - 1)%Z with (Z.of_nat (size * 2 - 1)) by lia.
    apply (holds_ix2 L X I h nx _ _ ids c (len c) (load c) (index c ++ concat (rev (row0 :: rows))) (size * 2 - 1)); try assumption; try reflexivity; try lia.
    intros q Hq Hne. rewrite J4 by exact Hne. hp. rewrite K3 by exact Hq. apply Hlow4, Hq.
  Qed.
  Lemma src_build n d L X I s (c c' : core V V) :
    holds L X I s c -> build_index c = (Ok tt, c') -> build_fuel c <= n ->
    wp (call lt eq klass n (S d) "_build_index" []) s (fun r s' => r = Ok VNone /\ holds L X I s' c').
  Proof.
    intros H E Hn. eapply wp_mono; [exact (src_build_still n d L X I s c c' H E Hn)|]. cbv beta. tauto.
  Qed.
End Main.

(** * The methods of the text that take many values (proofs) *)
From Coq Require Import String.
From Verif Require Import IndexFacts SliceFacts CoreFacts Shape VtFacts ListSim.
From Verif Require Import PyBase BaseFacts Model SourceSyntax SourceText SourceSem SourceRep SourceFacts SourceLoops SourceBuild SourceMoves SourceTree SourceMethods SourceChange.
Local Open Scope string_scope.
Local Open Scope nat_scope.
Local Open Scope list_scope.
Local Unset Implicit Arguments.

Definition piece {A} (ld : nat) (l : list A) (i : nat) : list A := firstn ld (skipn (i * ld) l).

Lemma range_len_next ld (n : nat) : 1 <= ld -> 1 <= n ->
  range_len 0 (Z.of_nat n) (Z.of_nat ld) = S (range_len 0 (Z.of_nat (n - ld)) (Z.of_nat ld)).
Proof.
  intros Hl Hn. unfold range_len. destruct (Z.ltb_spec 0 (Z.of_nat ld)); [|lia].
  destruct (Nat.le_gt_cases n ld) as [Hle|Hgt].
  - replace (n - ld) with 0 by lia.
    replace ((Z.of_nat 0 - 0 + Z.of_nat ld - 1) / Z.of_nat ld)%Z with 0%Z by (symmetry; apply Z.div_small; lia).
    replace ((Z.of_nat n - 0 + Z.of_nat ld - 1) / Z.of_nat ld)%Z with 1%Z; [reflexivity|].
    apply (Z.div_unique _ _ 1 (Z.of_nat n - 1)); lia.
  - replace (Z.of_nat n - 0 + Z.of_nat ld - 1)%Z with ((Z.of_nat (n - ld) - 0 + Z.of_nat ld - 1) + 1 * Z.of_nat ld)%Z by lia.
    rewrite Z.div_add by lia. rewrite Z2Nat.inj_add; [cbn; lia| |lia]. apply Z.div_pos; lia.
Qed.
Lemma range_len_0 ld : 1 <= ld -> range_len 0 0 (Z.of_nat ld) = 0.
Proof.
  intros Hl. unfold range_len. destruct (Z.ltb_spec 0 (Z.of_nat ld)); [|lia]. rewrite Z.div_small by lia. reflexivity.
Qed.

Lemma skipn_twice {A} : forall a b (l : list A), skipn a (skipn b l) = skipn (b + a) l.
Proof. intros a b. induction b as [|b IH]; intros l; [reflexivity|]. destruct l; [cbn; apply skipn_nil|]. cbn. apply IH. Qed.

Lemma chunks_seq {A} ld (l : list A) : 1 <= ld ->
  chunks ld l = Ok (map (piece ld l) (seq 0 (range_len 0 (Z.of_nat (length l)) (Z.of_nat ld)))).
Proof.
  intros Hl. unfold chunks. destruct (Nat.eqb_spec ld 0); [lia|].
  assert (H : forall f (l : list A), length l <= f ->
    chunks_fuel f ld l = Ok (map (piece ld l) (seq 0 (range_len 0 (Z.of_nat (length l)) (Z.of_nat ld))))).
  { clear l. induction f as [|f IH]; intros l Hf.
    - destruct l; [|cbn in Hf; lia]. cbn [length chunks_fuel]. change (Z.of_nat 0) with 0%Z. rewrite range_len_0 by lia. reflexivity.
    - destruct l as [|x t]. { cbn [length chunks_fuel]. change (Z.of_nat 0) with 0%Z. rewrite range_len_0 by lia. reflexivity. }
      cbn [chunks_fuel]. set (l := x :: t) in *. assert (1 <= length l) by (cbn; lia).
      rewrite IH by (rewrite skipn_length; lia). cbn [rbind]. rewrite (range_len_next ld (length l)) by lia. cbn [seq map]. f_equal. f_equal.
      rewrite skipn_length, <- seq_shift, map_map. apply map_ext. intros i. unfold piece. f_equal.
      rewrite skipn_twice. f_equal; lia. }
  apply H. lia.
Qed.

Lemma find_put {V} x (v : val V) : forall en, find x (put x v en) = Some v.
Proof.
  induction en as [|[y w] en IH]; cbn [put find]; [rewrite String.eqb_refl; reflexivity|].
  destruct (String.eqb x y) eqn:E; cbn [find]; rewrite E; [reflexivity|exact IH].
Qed.
Lemma find_put_other {V} x y (v : val V) : String.eqb y x = false -> forall en, find y (put x v en) = find y en.
Proof.
  intros H. induction en as [|[z w] en IH]; cbn [put find]; [rewrite H; reflexivity|].
  destruct (String.eqb x z) eqn:E; cbn [find]; [|rewrite IH; reflexivity].
  apply String.eqb_eq in E. subst z. rewrite H. reflexivity.
Qed.

Lemma slice_piece {A} ld (l : list A) i u v :
  bounds (Some (Z.of_nat (i * ld))) (Some (Z.of_nat (i * ld) + Z.of_nat ld)%Z) (length l) = (u, v) ->
  slicen l u v = piece ld l i.
Proof.
  unfold bounds. rewrite <- Nat2Z.inj_add, !clamp_nat. intros [= <- <-]. unfold slicen, piece. set (a := i * ld).
  destruct (Nat.le_gt_cases a (length l)).
  - rewrite (Nat.min_l a) by lia. destruct (Nat.le_gt_cases (a + ld) (length l)).
    + f_equal. lia.
    + rewrite !firstn_all2; [reflexivity| |]; rewrite skipn_length; lia.
  - rewrite !skipn_all2 by lia. rewrite !firstn_nil. reflexivity.
Qed.

Section Fill.
  Context {V : Type} (lt eq : V -> V -> res bool).
  Variable iv : string -> list (val V) -> M (st V) (val V).

  Definition piece_expr : expr :=
    ESlice (EName "values") (Some (EName "pos")) (Some (EBin Oadd (EName "pos") (EName "_load"))).

  Lemma eval_piece en h nx at_ r vs ld i : find "values" en = Some (VList r) -> find "_load" en = Some (vnat ld) -> h r = map VElt vs ->
    eval lt eq iv piece_expr (put "pos" (VInt (Z.of_nat (i * ld))) en) (mkst h nx at_) =
      (Ok (VList nx), mkst (on h nx (map VElt (piece ld vs i))) (S nx) at_).
  Proof.
    intros F1 F2 Hr. unfold piece_expr. cbn [eval]. unfold bind.
    rewrite (find_put_other "pos" "values") by reflexivity. rewrite F1.
    rewrite !(find_put_other "pos" "_load") by reflexivity. rewrite F2, find_put.
    unfold ret, arith, opt_int, int_of, vnat, bind, load_at, ret. cbn [heap]. rewrite Hr, map_length.
    destruct (bounds (Some (Z.of_nat (i * ld))) (Some (Z.of_nat (i * ld) + Z.of_nat ld)%Z) (length vs)) as [u v] eqn:Eb.
    pose proof (slice_piece _ _ _ _ _ Eb) as Hs. unfold new_list, bind, alloc, ret. cbn [heap next attrs].
    rewrite <- Hs. unfold slicen. rewrite skipn_map, firstn_map. reflexivity.
  Qed.

  Lemma eval_pieces en at_ r vs ld : find "values" en = Some (VList r) -> find "_load" en = Some (vnat ld) ->
    forall is h nx, h r = map VElt vs -> r < nx ->
    exists h', mapM (fun w => eval lt eq iv piece_expr (put "pos" w en)) (map (fun i => VInt (Z.of_nat (i * ld))) is) (mkst h nx at_) =
        (Ok (map VList (seq nx (length is))), mkst h' (nx + length is) at_) /\
      (forall q, q < nx -> h' q = h q) /\ map h' (seq nx (length is)) = map (map VElt) (map (piece ld vs) is).
  Proof.
    intros F1 F2. induction is as [|i is IH]; intros h nx Hr Hn.
    - exists h. cbn [map mapM length seq]. rewrite Nat.add_0_r. auto.
    - destruct (IH (on h nx (map VElt (piece ld vs i))) (S nx)) as (h' & E & Hk & Hm).
      { rewrite on_other by lia. exact Hr. } { lia. }
      exists h'. cbn [map mapM length seq]. unfold bind. rewrite (eval_piece en h nx at_ r vs ld i F1 F2 Hr). unfold bind in E. rewrite E.
      unfold ret. split; [f_equal; f_equal; lia|]. split.
      + intros q Hq. rewrite Hk by lia. apply on_other. lia.
      + rewrite Hm, Hk by lia. rewrite on_same. reflexivity.
  Qed.

  Definition fill_stmt : stmt :=
    SSeq (SAssign (EName "_load") (EAttr (EName "self") "_load"))
    (SSeq (SExpr (ECall (EAttr (EName "_lists") "extend")
             [EGen piece_expr "pos" (ECall (EName "range") [ENum 0; ECall (EName "len") [EName "values"]; EName "_load"])]))
    (SSeq (SExpr (ECall (EAttr (EName "_maxes") "extend") [EGen (EIndex (EName "sublist") (ENeg (ENum 1))) "sublist" (EName "_lists")]))
    (SSeq (SAssign (EAttr (EName "self") "_len") (ECall (EName "len") [EName "values"]))
          (SDel (ESlice (EAttr (EName "self") "_index") None None))))).

  Lemma lasts_eval en s ids ls ms : map (heap s) ids = map (map (@VElt V)) ls -> mapR getlast ls = Ok ms ->
    mapM (fun w => eval lt eq iv (EIndex (EName "sublist") (ENeg (ENum 1))) (put "sublist" w en)) (map VList ids) s = (Ok (map VElt ms), s).
  Proof.
    revert ls ms. induction ids as [|id ids IH]; intros [|l ls] ms Hm Hg; try discriminate Hm.
    - injection Hg as <-. reflexivity.
    - cbn [map] in Hm. injection Hm as H1 H2. cbn [mapR rbind] in Hg.
      destruct (getlast l) as [m|] eqn:E1; [|discriminate]. destruct (mapR getlast ls) as [ms'|] eqn:E2; [|discriminate]. injection Hg as <-.
      cbn [map mapM]. unfold bind at 1.
      assert (E : eval lt eq iv (EIndex (EName "sublist") (ENeg (ENum 1))) (put "sublist" (VList id) en) s = (Ok (VElt m), s)).
      { cbn [eval]. unfold bind. rewrite find_put. unfold ret, int_of, ret, subscript, bind, load_at. rewrite H1.
        change (- (1))%Z with (-1)%Z. rewrite getz_map, last_z, E1. reflexivity. }
      rewrite E. unfold bind. rewrite (IH ls ms' H2 E2). reflexivity.
  Qed.

  Lemma src_fill n L X I h nx (ix : list nat) ln off ld r vs it ls ms : 1 <= ld ->
    rep L X I h nx [] [] [] ix -> h r = map VElt vs -> r < nx -> r <> L -> r <> X -> r <> I ->
    chunks ld vs = Ok ls -> mapR getlast ls = Ok ms ->
    wp (exec lt eq iv n fill_stmt [("self", VSelf); ("iterable", it); ("_lists", VList L); ("_maxes", VList X); ("values", VList r)])
       (mkst h nx (slots ln ld L X I off))
       (fun r' s' => (exists en', r' = Ok (Go en')) /\ holds L X I s' (mkcore ls ms [] off (length vs) ld)).
  Proof.
    intros Hld R Hr Hrn RL RX RI Hc Hg. pose proof (rep_dist _ _ _ _ _ _ _ _ _ R) as (P1 & P2 & P3 & _ & _ & _ & _ & P8 & P9 & P10 & _).
    unfold fill_stmt. run. rewrite Hr, map_length. run.
    rewrite nzz_nat. destruct (Nat.eqb_spec ld 0); [lia|]. run.
    set (k := range_len 0 (Z.of_nat (length vs)) (Z.of_nat ld)).
    assert (Er : map VInt (rangez 0 (Z.of_nat (length vs)) (Z.of_nat ld)) = map (fun i => @VInt V (Z.of_nat (i * ld))) (seq 0 k)).
    { unfold rangez. rewrite map_map. apply map_ext. intros i. f_equal. lia. }
    rewrite Er. rewrite chunks_seq in Hc by lia. fold k in Hc. injection Hc as Hc.
    match goal with |- wp (mapM (fun w => eval lt eq iv piece_expr (put "pos" w ?e)) _) (mkst _ _ ?a) _ =>
      destruct (eval_pieces e a r vs ld eq_refl eq_refl (seq 0 k) h nx Hr Hrn) as (h2 & E2 & Hk2 & Hm2) end.
    eapply wp_eq; [exact E2|]. cbv beta iota. rewrite seq_length in *. rewrite Hc in Hm2. run. rewrite !on_same.
    pose proof R as (HX & HI & HL & _). set (nx2 := nx + k).
    rewrite !(on_other _ nx2 _ L) by lia. rewrite Hk2, HL by lia. cbn [app map].
    set (h3 := on (on h2 nx2 (map VList (seq nx k))) nx2 []).
    assert (Hh3 : forall q, q < nx2 -> h3 q = h2 q) by (intros q Hq; unfold h3; rewrite !on_other by lia; reflexivity).
    clearbody h3.
    assert (R3 : rep L X I h3 (S nx2) [] [] [] ix).
    { apply (rep_ix_any L X I h h3 nx _ [] [] [] ix ix R).
      - intros q Hq _. rewrite Hh3, Hk2 by lia. reflexivity.
      - rewrite Hh3, Hk2 by lia. exact HI.
      - lia. }
    assert (R4 : rep L X I (on h3 L (map VList (seq nx k))) (S nx2) (seq nx k) ls [] ix).
    { apply (rep_lists L X I h3 (S nx2) [] [] [] ix _ _ R3).
      - rewrite <- Hm2. apply map_ext_in. intros q Hq. apply in_seq in Hq. apply Hh3. lia.
      - apply seq_NoDup.
      - intros q Hq. apply in_seq in Hq. lia. }
    assert (Hr4 : on h3 L (map VList (seq nx k)) r = map VElt vs).
    { rewrite on_other, Hh3, Hk2 by lia. exact Hr. }
    revert R4 Hr4. generalize (on h3 L (map VList (seq nx k))). intros h4 R4 Hr4.
    pose proof R4 as (HX4 & HI4 & HL4 & Hm4 & _). run.
    eapply wp_eq; [exact (lasts_eval [("self", VSelf); ("iterable", it); ("_lists", VList L); ("_maxes", VList X); ("values", VList r); ("_load", vnat ld)]
      (mkst h4 (S nx2) (slots ln ld L X I off)) (seq nx k) ls ms Hm4 Hg)|]. run. rewrite !on_same.
    rewrite !(on_other _ (S nx2) _ X) by lia. rewrite HX4. cbn [app map].
    match goal with |- context [on (on (on ?a ?b ?c) ?b []) X ?e] => set (h5 := on (on a b c) b []) end.
    assert (R5 : rep L X I (on h5 X (map VElt ms)) (S (S nx2)) (seq nx k) ls ms ix).
    { apply (rep_max L X I h5 _ _ _ [] ix ms). apply (rep_over L X I _ _ _ _ _ _ _ _ (rep_new L X I _ _ _ _ _ _ _ R4)).
      cbn [In]. rewrite in_seq. lia. }
    assert (Hr5 : on h5 X (map VElt ms) r = map VElt vs) by (rewrite on_other by lia; unfold h5; rewrite !on_other by lia; exact Hr4).
    revert R5 Hr5. generalize (on h5 X (map VElt ms)). clear h5. intros h5 R5 Hr5.
    run. rewrite Hr5, map_length. run. cutall. run.
    split; [eexists; reflexivity|].
    exact (rep_holds L X I _ _ _ ls ms [] (length vs) ld off (rep_ix L X I _ _ _ _ _ _ [] R5)).
  Qed.
End Fill.

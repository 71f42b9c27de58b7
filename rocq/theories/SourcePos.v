(** * The methods of the text that look up positions (proofs) *)
From Coq Require Import String.
From Verif Require Import IndexFacts SliceFacts CoreFacts Shape VtFacts ListSim.
From Verif Require Import PyBase BaseFacts Model SourceSyntax SourceText SourceSem SourceRep SourceFacts SourceLoops SourceBuild SourceMoves SourceTree SourceMethods SourceChange SourceAdd.
Local Open Scope string_scope.
Local Open Scope nat_scope.
Local Open Scope list_scope.
Local Unset Implicit Arguments.

Section Positions.
  Context {V : Type} (lt eq : V -> V -> res bool).

  (** [idx] is past the first sublist, so there is another. *)
  Lemma past_first (c : core V V) l0 k : CoreOK c -> getn (lists c) 0 = Ok l0 -> length l0 <= k -> k < len c -> 2 <= length (lists c).
  Proof.
    intros H Hg Hk Hl. pose proof (co_len _ H) as E. unfold contents in E. unfold getn in Hg.
    destruct (lists c) as [|a [|b t]]; cbn in *; try discriminate; try lia.
    injection Hg as ->. rewrite app_nil_r in E. lia.
  Qed.

  Definition pos_tail : stmt :=
    SSeq (SIf (ECmp Qlt (EName "idx") (ECall (EName "len") [EIndex (EAttr (EName "self") "_lists") (ENum 0)]))
              (SReturn (ETuple [ENum 0; EName "idx"])) SPass)
    (SSeq (SAssign (EName "_index") (EAttr (EName "self") "_index"))
    (SSeq (SIf (ENot (EName "_index")) (SExpr (ECall (EAttr (EName "self") "_build_index") [])) SPass)
    (SSeq (SAssign (EName "pos") (ENum 0))
    (SSeq (SAssign (EName "child") (ENum 1))
    (SSeq (SAssign (EName "len_index") (ECall (EName "len") [EName "_index"]))
    (SSeq (SWhile (ECmp Qlt (EName "child") (EName "len_index")) pos_body)
          (SReturn (ETuple [EBin Osub (EName "pos") (EAttr (EName "self") "_offset"); EName "idx"])))))))).

  Lemma src_pos_tail_still n d L X I s (c c' : core V V) k p i en :
    holds L X I s c -> pos_nonneg k c = (Ok (p, i), c') -> enough c n -> CoreOK c -> k < len c ->
    find "idx" en = Some (vnat k) -> find "self" en = Some VSelf -> find "len" en = None ->
    wp (exec lt eq (call lt eq klass n (S d)) n pos_tail en) s
       (fun r s' => r = Ok (Done (VTup [vnat p; vnat i])) /\ holds L X I s' c' /\ still I s s').
  Proof.
    intros H E (Hn1 & Hn2 & Hn3) Hc Hk F1 F2 F3. unfold pos_nonneg, pos_tree, bind, get, liftr, ret in E.
    destruct (holds_rep _ _ _ _ _ H) as (h & nx & ids & -> & R). pose proof R as (HX & HI & HL & Hm & Hd & Hf).
    destruct (getn (lists c) 0) as [l0|] eqn:E0; [|discriminate].
    pose proof (sub_at _ _ _ 0 Hm) as Hs. rewrite E0 in Hs. destruct Hs as (id & Hp & Hid).
    unfold pos_tail. run. rewrite F1. run. rewrite F3. run. rewrite F2. run. rewrite HL, getz_map.
    change 0%Z with (Z.of_nat 0) at 1. rewrite getz_nat, Hp. run. rewrite Hid, map_length, ltz_nat.
    destruct (Nat.ltb_spec k (length l0)) as [Hlt|Hge].
    { run. rewrite F1. run. injection E as <- <- <-. split; [reflexivity|]. split; [exact H|apply still_refl]. }
    destruct (ensure_index c) as [[[]|] c1] eqn:E1; [|discriminate].
    destruct (pos_loop (S (length (index c1))) (index c1) 0 1 k) as [[q j]|] eqn:E2; [|discriminate]. cbn [fst snd] in *.
    unfold subc in E. destruct (Nat.leb_spec (offset c1) q); [|discriminate]. injection E as <- <- <-.
    cbv beta iota. repeat lazymatch goal with |- wp (exec _ _ _ _ (SIf (ENot (EName "_index")) _ _) _) _ _ => fail | _ => ev end.
    rewrite F2. cbv beta iota. repeat lazymatch goal with |- wp (exec _ _ _ _ (SIf (ENot (EName "_index")) _ _) _) _ _ => fail | _ => ev end.
    eapply wp_mono; [eapply exec_ensure_still; try eassumption; fp; try reflexivity; assumption|]. cbv beta. intros r s' (-> & H' & Hst).
    destruct (holds_rep _ _ _ _ _ H') as (h' & nx' & ids' & -> & R'). pose proof R' as (HX' & HI' & HL' & Hm' & Hd' & Hf').
    run. fp. rewrite F3. run. fp. run. rewrite HI', map_length.
    match goal with |- wp (exec ?a ?b ?iv ?n (SWhile ?cn ?bd) ?en) ?s ?Q =>
      change (wp (while_loop n (eval a b iv cn) (exec a b iv n bd) en) s Q) end.
    eapply wp_mono.
    { apply (walk_pos lt eq (call lt eq klass n (S d)) n I _ n 0 1 k (index c1) q j _ _ E2 Hn3); [exact HI'|..]; fp; try assumption; reflexivity. }
    cbv beta. intros r s' (-> & en' & -> & G1 & G2 & G3). run. rewrite G1. run. rewrite G3. run. rewrite G2. run.
    rewrite <- Nat2Z.inj_sub by assumption. split; [reflexivity|]. split; [exact H'|exact Hst].
  Qed.

  Lemma src_pos_still n d L X I s (c c' : core V V) z p i :
    holds L X I s c -> pos_of z c = (Ok (p, i), c') -> enough c n -> CoreOK c ->
    wp (call lt eq klass n (S (S d)) "_pos" [VInt z]) s (fun r s' => r = Ok (VTup [vnat p; vnat i]) /\ holds L X I s' c' /\ still I s s').
  Proof.
    intros H E Hn Hc. enter. destruct (holds_rep _ _ _ _ _ H) as (h & nx & ids & -> & R). pose proof R as (HX & HI & HL & Hm & Hd & Hf).
    unfold pos_of, bind, get, liftr, ret, raise in E. ev.
    lazymatch goal with |- wp (exec _ _ _ _ (SIf ?c0 ?a0 ?b0) _) _ _ => set (body := SIf c0 a0 b0) end.
    match goal with |- wp _ _ ?Q => set (QQ := Q) end.
    match goal with |- wp _ ?s0 _ => set (ss := s0) in * end.
    assert (Htail : forall en s1 k, holds L X I s1 c -> still I ss s1 -> pos_nonneg k c = (Ok (p, i), c') -> k < len c ->
      find "idx" en = Some (vnat k) -> find "self" en = Some VSelf -> find "len" en = None -> QQ (Ok (Go en)) s1).
    { intros en s1 k H1 Hs1 E1 Hk F1 F2 F3. unfold QQ.
      eapply wp_mono; [exact (src_pos_tail_still n d L X I s1 c c' k p i en H1 E1 Hn Hc Hk F1 F2 F3)|].
      cbv beta. intros r s' (-> & H' & Hst). split; [reflexivity|]. split; [exact H'|]. exact (still_trans _ _ _ _ Hs1 Hst). }
    assert (Hdone : forall v s1, v = VTup [vnat p; vnat i] -> holds L X I s1 c' -> still I ss s1 -> QQ (Ok (Done v)) s1).
    { intros v s1 -> H1 Hs1. split; [reflexivity|]. split; [exact H1|exact Hs1]. }
    clearbody QQ. unfold body, ss. run. destruct (Z.ltb_spec z 0) as [Hz|Hz]; run.
    - destruct (getlast (lists c)) as [lst|] eqn:El; [|discriminate].
      rewrite HL, getz_map. change (- (1))%Z with (-1)%Z.
      assert (Hlast : exists id, getz ids (-1) = Ok id /\ h id = map VElt lst).
      { pose proof (f_equal (fun l => getz l (-1)%Z) Hm) as Hg. cbv beta in Hg. unfold getlast in El. rewrite !getz_map, El in Hg.
        destruct (getz ids (-1)) as [id|]; [|discriminate]. exists id. injection Hg as Hg. auto. }
      destruct Hlast as (id & Hid & Hidl). rewrite Hid. run. rewrite Hidl, map_length.
      destruct (Z.leb_spec (- z) (Z.of_nat (length lst))) as [Hle|Hgt]; run.
      + rewrite HL, map_length. injection E as <- <- <-. apply Hdone; [|exact H|apply still_refl].
        pose proof (ids_length _ _ _ Hm) as Hidln.
        assert (1 <= length (lists c)) by (destruct (lists c); [discriminate|cbn; lia]).
        f_equal. f_equal; [|f_equal]; unfold vnat; f_equal; lia.
      + destruct (Z.ltb_spec (z + Z.of_nat (len c)) 0) as [Hneg|Hnn]; [discriminate|]. run.
        rewrite <- (Z2Nat.id (z + Z.of_nat (len c))) by lia.
        apply (Htail _ _ (Z.to_nat (z + Z.of_nat (len c))) H (still_refl _ _) E); try reflexivity. lia.
    - destruct (Z.leb_spec (Z.of_nat (len c)) z) as [Hle|Hgt]; [discriminate|]. run.
      rewrite <- (Z2Nat.id z) by lia. apply (Htail _ _ (Z.to_nat z) H (still_refl _ _) E); try reflexivity. lia.
  Qed.

  Lemma src_pos n d L X I s (c c' : core V V) z p i :
    holds L X I s c -> pos_of z c = (Ok (p, i), c') -> enough c n -> CoreOK c ->
    wp (call lt eq klass n (S (S d)) "_pos" [VInt z]) s (fun r s' => r = Ok (VTup [vnat p; vnat i]) /\ holds L X I s' c').
  Proof.
    intros H E Hn Hc. eapply wp_mono; [exact (src_pos_still n d L X I s c c' z p i H E Hn Hc)|]. cbv beta. tauto.
  Qed.

  (** Out of range. *)
  Lemma src_pos_out_same n d L X I s (c : core V V) z :
    holds L X I s c -> CoreOK c -> ~ (0 <= norm (len c) z < Z.of_nat (len c))%Z ->
    wp (call lt eq klass n (S (S d)) "_pos" [VInt z]) s (fun r s' => r = Err IndexError /\ s' = s).
  Proof.
    intros H Hc Hz. enter. destruct (holds_rep _ _ _ _ _ H) as (h & nx & ids & -> & R). pose proof R as (HX & HI & HL & Hm & Hd & Hf).
    unfold norm in Hz. run. destruct (Z.ltb_spec z 0) as [Hneg|Hnn]; run.
    - rewrite HL, getz_map. change (- (1))%Z with (-1)%Z.
      pose proof (f_equal (fun l => getz l (-1)%Z) Hm) as Hg. cbv beta in Hg. rewrite !getz_map in Hg.
      destruct (getz ids (-1)) as [id|e] eqn:Ei.
      + destruct (getz (lists c) (-1)) as [lst|] eqn:El; [|discriminate]. injection Hg as Hg. run. rewrite Hg, map_length.
        assert (Hle : length lst <= len c).
        { rewrite (co_len _ Hc). unfold contents. unfold getz in El.
          destruct (lists c) as [|a t] eqn:Ec; [discriminate|]. rewrite <- Ec in *.
          cbv zeta in El. change (-1 <? 0)%Z with true in El. cbv iota in El. destruct (_ <? 0)%Z; [discriminate|]. pose proof (getn_in _ _ _ El) as Hin.
          destruct (in_split _ _ Hin) as (A & B & ->). rewrite concat_app, app_length. cbn. rewrite app_length. lia. }
        destruct (Z.leb_spec (- z) (Z.of_nat (length lst))) as [Hle2|Hgt]; [lia|]. run.
        destruct (Z.ltb_spec (z + Z.of_nat (len c)) 0) as [Hneg2|Hnn2]; [|lia]. run. split; reflexivity.
      + unfold getz in Ei. cbv zeta in Ei.
        change (-1 <? 0)%Z with true in Ei. cbv iota in Ei. destruct (_ <? 0)%Z; [injection Ei as <-|unfold getn in Ei; destruct (nth_error ids _); [discriminate|injection Ei as <-]].
        all: run; split; reflexivity.
    - destruct (Z.leb_spec (Z.of_nat (len c)) z) as [Hle|Hgt]; [|lia]. run. split; reflexivity.
  Qed.

  Lemma src_pos_out n d L X I s (c : core V V) z :
    holds L X I s c -> CoreOK c -> ~ (0 <= norm (len c) z < Z.of_nat (len c))%Z ->
    wp (call lt eq klass n (S (S d)) "_pos" [VInt z]) s (fun r s' => r = Err IndexError /\ holds L X I s' c).
  Proof.
    intros H Hc Hz. eapply wp_mono; [exact (src_pos_out_same n d L X I s c z H Hc Hz)|]. cbv beta. intros r s' (-> & ->). auto.
  Qed.

  Lemma pos_enough n z (c c' : core V V) pk : LShape c -> enough c n -> pos_of z c = (Ok pk, c') ->
    LShape c' /\ enough c' n /\ touch c c'.
  Proof.
    intros Hc Hn E. pose proof (lshape_core _ Hc) as HC.
    assert (Ht : touch c c' /\ (c' = c \/ (2 <= length (lists c) /\ ensure_index c = (Ok tt, c')))).
    { assert (K : forall k, k < len c -> pos_nonneg k c = (Ok pk, c') -> touch c c' /\ (c' = c \/ (2 <= length (lists c) /\ ensure_index c = (Ok tt, c')))).
      { intros k Hk E1. unfold pos_nonneg, pos_tree, bind, get, liftr, ret in E1.
        destruct (getn (lists c) 0) as [l0|] eqn:E0; [|discriminate].
        destruct (Nat.ltb_spec k (length l0)). { injection E1 as _ <-. split; [apply touch_refl, HC|left; reflexivity]. }
        pose proof (past_first c l0 k HC E0 ltac:(lia) Hk) as H2.
        destruct (ensure_index_ok c HC H2) as (c1 & E2 & Ht & _). rewrite E2 in E1 |- *.
        destruct (pos_loop _ _ _ _ _) as [q|]; [|discriminate]. destruct (subc _ _); [|discriminate]. injection E1 as _ <-. auto. }
      unfold pos_of, bind, get, liftr, ret, raise in E. destruct (Z.ltb_spec z 0).
      - destruct (getlast (lists c)); [|discriminate]. destruct (_ <=? _)%Z.
        + injection E as _ <-. split; [apply touch_refl, HC|left; reflexivity].
        + destruct (Z.ltb_spec (z + Z.of_nat (len c)) 0); [discriminate|]. refine (K _ _ E); lia.
      - destruct (Z.leb_spec (Z.of_nat (len c)) z); [discriminate|]. refine (K _ _ E); lia. }
    destruct Ht as (Ht & Ho). split; [exact (lshape_touch _ _ Hc Ht)|]. split; [|exact Ht].
    destruct Ho as [->|(H2 & He)]; [exact Hn|]. exact (enough_ensure c c' n HC H2 He Hn).
  Qed.
End Positions.

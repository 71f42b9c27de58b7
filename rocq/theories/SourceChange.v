(** * The methods of the text that change the list (proofs) *)
From Coq Require Import String.
From Verif Require Import IndexFacts SliceFacts CoreFacts Shape VtFacts ListSim.
From Verif Require Import PyBase BaseFacts Model SourceSyntax SourceText SourceSem SourceRep SourceFacts SourceLoops SourceBuild SourceMoves SourceTree SourceMethods.
Local Open Scope string_scope.
Local Open Scope nat_scope.
Local Open Scope list_scope.
Local Unset Implicit Arguments.

Lemma bounds_all n : bounds None None n = (0, n).
Proof. reflexivity. Qed.
Lemma bounds_from k n : k <= n -> bounds (Some (Z.of_nat k)) None n = (k, n).
Proof. intros H. unfold bounds. rewrite clamp_nat, Nat.min_l, Nat.max_r by lia. reflexivity. Qed.
Ltac cutall := rewrite bounds_all; cbv beta iota; cbn [firstn app]; rewrite skipn_all.
Lemma last_z {A} (l : list A) : getz l (-1) = getlast l.
Proof. reflexivity. Qed.

Section Change.
  Context {V : Type} (lt eq : V -> V -> res bool).

  Lemma src_clear n d L X I s (c : core V V) name : In name ["clear"; "_clear"] -> holds L X I s c ->
    wp (call lt eq klass n (S d) name []) s
       (fun r s' => r = Ok VNone /\ holds L X I s' (mkcore [] [] [] 0 0 (load c))).
  Proof.
    intros Hname H. destruct Hname as [<-|[<-|[]]]; enter.
    all: destruct (holds_rep _ _ _ _ _ H) as (h & nx & ids & -> & R); pose proof (rep_dist _ _ _ _ _ _ _ _ _ R) as (P1 & P2 & P3 & _).
    all: run; cutall; run; cutall; run; cutall; run.
    all: split; [reflexivity|]; exact (rep_holds L X I _ nx [] [] [] [] 0 (load c) 0 (rep_clear _ _ _ _ _ _ _ _ _ R)).
  Qed.

  Lemma twice_load k : Z.shiftl (Z.of_nat k) 1 = Z.of_nat (k * 2).
  Proof. rewrite Z.shiftl_mul_pow2 by lia. change (2 ^ 1)%Z with 2%Z. lia. Qed.

  Lemma src_expand n d L X I s (c c' : core V V) p : holds L X I s c -> sl_expand p c = (Ok tt, c') ->
    index c = [] \/ S (offset c + p) <= n ->
    wp (call lt eq klass n (S d) "_expand" [vnat p]) s (fun r s' => r = Ok VNone /\ holds L X I s' c').
  Proof.
    intros H E Hn. enter. destruct (holds_rep _ _ _ _ _ H) as (h & nx & ids & -> & R). pose proof R as (HX & HI & HL & Hm & Hd & Hf).
    unfold sl_expand, modifyR in E.
    run. rewrite HL, getz_map, getz_nat.
    pose proof (sub_at _ _ _ p Hm) as Hs. destruct (getn (lists c) p) as [l|e] eqn:El; [|discriminate]. cbn [rbind] in E.
    destruct Hs as (id & Hp & Hid). rewrite Hp. run. rewrite Hid, map_length. change (1 <? 0)%Z with false. run.
    rewrite twice_load, ltz_nat. destruct (Nat.ltb_spec (load c * 2) (length l)) as [Hlt|Hge]; run.
    - rewrite HL, getz_map, getz_nat, Hp. run. rewrite Hid, map_length, bounds_from by lia. run.
      destruct (setn (lists c) p (firstn (load c) l)) as [ls|] eqn:E1; [|discriminate]. cbn [rbind] in E.
      destruct (getlast (firstn (load c) l)) as [m|] eqn:E2; [|discriminate]. cbn [rbind] in E.
      destruct (setn (maxes c) p m) as [ms|] eqn:E3; [|discriminate]. cbn [rbind] in E.
      destruct (getlast (skipn (load c) l)) as [hm|] eqn:E4; [|discriminate]. cbn [rbind] in E. injection E as <-.
      assert (Hsl : slicen (map VElt l) (load c) (length l) = map (@VElt V) (skipn (load c) l)).
      { unfold slicen. rewrite skipn_map, firstn_map. f_equal. apply firstn_all2. rewrite skipn_length. lia. }
      rewrite Hsl. clear Hsl.
      pose proof (rep_dist _ _ _ _ _ _ _ _ _ R) as (P1 & P2 & P3 & P4 & P5 & P6 & P7 & P8 & P9 & P10 & P11).
      pose proof (getn_in _ _ _ Hp) as Hin. assert (Hidn : id < nx) by (rewrite Forall_forall in P11; auto).
      rewrite on_other, Hid, map_length, bounds_from by lia. run.
      rewrite <- (map_length (@VElt V) l), skipn_all, app_nil_r, firstn_map.
      pose proof (rep_sub _ _ _ _ _ _ _ _ _ p id _ _ (rep_new _ _ _ _ _ _ _ _ _ (map VElt (skipn (load c) l)) R) Hp E1) as R1.
      match type of R1 with rep _ _ _ ?x _ _ _ _ _ => set (h1 := x) in * end.
      assert (Hnew : h1 nx = map VElt (skipn (load c) l)) by (unfold h1; rewrite on_other, on_same by lia; reflexivity).
      assert (Hid1 : h1 id = map VElt (firstn (load c) l)) by (unfold h1; apply on_same).
      clearbody h1. clear R HX HI HL Hm Hd Hf Hid H. pose proof R1 as (HX & HI & HL & Hm & Hd & Hf).
      run. rewrite Hid1, getz_map, last_z, E2. run. rewrite HX, map_length, place_nat.
      destruct (updn_inv _ _ _ _ E3) as (Hpm & _). destruct (Nat.ltb_spec p (length (maxes c))); [|lia]. run.
      rewrite setn_map, E3. cbn [rmap]. run.
      pose proof (rep_max _ _ _ _ _ _ _ _ _ ms R1) as R2.
      match type of R2 with rep _ _ _ ?x _ _ _ _ _ => set (h2 := x) in * end.
      assert (Hnew2 : h2 nx = map VElt (skipn (load c) l)) by (unfold h2; rewrite on_other by lia; exact Hnew).
      clearbody h2. clear R1 HX HI HL Hm Hd Hf Hid1 Hnew. pose proof R2 as (HX & HI & HL & Hm & Hd & Hf).
      replace (Z.of_nat p + 1)%Z with (Z.of_nat (p + 1)) by lia.
      rewrite HL, map_length, clamp_nat.
      assert (Hlen : p + 1 <= length ids) by (pose proof (getn_lt _ _ _ Hp); lia). rewrite Nat.min_l by exact Hlen.
      rewrite <- insn_map.
      pose proof (rep_ins _ _ _ _ _ _ _ _ _ (p + 1) (skipn (load c) l) nx R2 Hnew2) as R3.
      assert (Hni : ~ In nx (L :: X :: I :: ids)).
      { intros Hi. cbn [In] in Hi. rewrite Forall_forall in P11. destruct Hi as [Hi|[Hi|[Hi|Hi]]]; try lia. specialize (P11 _ Hi). lia. }
      specialize (R3 ltac:(lia) Hni).
      match type of R3 with rep _ _ _ ?x _ _ _ _ _ => set (h3 := x) in * end.
      assert (Hnew3 : h3 nx = map VElt (skipn (load c) l)) by (unfold h3; rewrite on_other by lia; exact Hnew2).
      clearbody h3. clear R2 HX HI HL Hm Hd Hf Hnew2. pose proof R3 as (HX & HI & HL & Hm & Hd & Hf).
      run. rewrite Hnew3, getz_map, last_z, E4. run. replace (Z.of_nat p + 1)%Z with (Z.of_nat (p + 1)) by lia.
      rewrite HX, map_length, clamp_nat.
      assert (Hms : length ms = length (maxes c)).
      { destruct (updn_inv _ _ _ _ E3) as (_ & x & y & _ & _ & _). clear - E3. unfold setn in E3. revert p ms E3.
        induction (maxes c) as [|a t IH]; intros p ms E3; [discriminate|]. destruct p; cbn in E3.
        - injection E3 as <-. reflexivity.
        - destruct (updn t p (fun _ => Ok m)) eqn:E; [|discriminate]. injection E3 as <-. cbn. f_equal. eapply IH, E. }
      rewrite Nat.min_l by lia. rewrite <- insn_map. run. cutall. run. split; [reflexivity|].
      pose proof (rep_ix _ _ _ _ _ _ _ _ _ [] (rep_max _ _ _ _ _ _ _ _ _ (insn ms (p + 1) hm) R3)) as R4.
      exact (rep_holds L X I _ _ _ _ _ _ (len c) (load c) (offset c) R4).
    - rewrite HI, is_nil_map. unfold index_inc in E. destruct (is_nil (index c)) eqn:En; cbn [negb]; run.
      { injection E as <-. split; [reflexivity|exact H]. }
      rewrite <- Nat2Z.inj_add. unfold index_walk in E.
      destruct (walk_up (fun k => Ok (k + 1)) (S (offset c + p)) (offset c + p) (index c)) as [ix1|] eqn:E1; [|discriminate].
      cbn [rbind] in E. destruct (updn ix1 0 (fun k => Ok (k + 1))) as [ix2|] eqn:E2; [|discriminate]. cbn [rbind] in E. injection E as <-.
      match goal with |- wp (exec ?a ?b ?iv ?n (SWhile ?cn ?bd) ?en) ?s ?Q =>
        change (wp (while_loop n (eval a b iv cn) (exec a b iv n bd) en) s Q) end.
      eapply wp_mono.
      { apply (walk_expand lt eq (call lt eq klass n d) n (vnat p) (vnat (load c)) L I _ n (offset c + p) (index c) ix1 _ E1); [|exact HI].
        destruct Hn as [Hn|Hn]; [rewrite Hn in En; discriminate|exact Hn]. }
      cbv beta. intros r [h1 nx1 a1] (-> & J1 & J2 & J3 & J4). cbn [heap next attrs] in *. subst nx1 a1.
      destruct (updn_inv _ _ _ _ E2) as (Hl0 & x & y & Hx & Hy & Hs). injection Hy as <-.
      run. rewrite J3, getz_map. change 0%Z with (Z.of_nat 0). rewrite getz_nat, Hx. run. rewrite J3, map_length, place_nat.
      destruct (Nat.ltb_spec 0 (length ix1)); [|lia]. run. change 1%Z with (Z.of_nat 1). rewrite <- Nat2Z.inj_add.
      change (VInt (Z.of_nat (x + 1))) with (@vnat V (x + 1)). rewrite setn_map, Hs. cbn [rmap]. run.
      split; [reflexivity|].
      assert (R1 : rep L X I h1 nx ids (lists c) (maxes c) ix1).
      { apply (rep_ix_any L X I h h1 nx nx ids (lists c) (maxes c) (index c) ix1 R); [intros q _ Hq; apply J4, Hq|exact J3|lia]. }
      exact (rep_holds L X I _ _ _ _ _ _ (len c) (load c) (offset c) (rep_ix _ _ _ _ _ _ _ _ _ ix2 R1)).
  Qed.
End Change.

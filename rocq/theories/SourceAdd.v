(** * The methods of the text that add and remove values (proofs) *)
From Coq Require Import String.
From Verif Require Import IndexFacts SliceFacts CoreFacts Shape VtFacts ListSim.
From Verif Require Import PyBase BaseFacts Model SourceSyntax SourceText SourceSem SourceRep SourceFacts SourceLoops SourceBuild SourceMoves SourceTree SourceMethods SourceChange.
Local Open Scope string_scope.
Local Open Scope nat_scope.
Local Open Scope list_scope.
Local Unset Implicit Arguments.

Section Change.
  Context {V : Type} (lt eq : V -> V -> res bool).

  Lemma enough_walk n (c : core V V) p : enough c n -> p < length (lists c) -> index c = [] \/ S (offset c + p) <= n.
  Proof.
    intros (_ & H & _) Hp. unfold ensure_index, bind, get in H. destruct (index c) as [|a t]; [left; reflexivity|].
    right. cbn [is_nil ret snd] in H. unfold ret in H. cbn [snd] in H. lia.
  Qed.

  Lemma src_add n d v L X I s (c c' : core V V) : LShape c -> enough c n -> holds L X I s c -> sl_add lt v c = (Ok tt, c') ->
    wp (call lt eq klass n (S (S d)) "add" [VElt v]) s (fun r s' => r = Ok VNone /\ holds L X I s' c').
  Proof.
    intros Hc Hn H E. enter. destruct (holds_rep _ _ _ _ _ H) as (h & nx & ids & -> & R). pose proof R as (HX & HI & HL & Hm & Hd & Hf).
    unfold sl_add, bind, get, liftr, ret, modify, modifyR in E. pose proof (shape_max c Hc) as Hlm.
    run. rewrite HX, is_nil_map. destruct (is_nil (maxes c)) eqn:En; cbn [negb]; run.
    - injection E as <-. apply is_nil_spec in En.
      assert (Ei : ids = []) by (apply ids_length in Hm; rewrite En in Hlm; destruct ids; [reflexivity|cbn in *; lia]). subst ids.
      pose proof (rep_dist _ _ _ _ _ _ _ _ _ R) as (P1 & P2 & P3 & P4 & P5 & P6 & P7 & P8 & P9 & P10 & P11).
      rewrite (on_other _ nx _ L), HL by lia.
      pose proof (rep_ins _ _ _ _ _ _ _ _ _ (length (lists c)) [v] nx (rep_new _ _ _ _ _ _ _ _ _ [VElt v] R)) as R1.
      rewrite on_same in R1. specialize (R1 eq_refl ltac:(lia)).
      assert (Hni : ~ In nx [L; X; I]) by (cbn; lia). specialize (R1 Hni).
      assert (El : lists c = []) by (destruct (lists c); [reflexivity|rewrite En in Hlm; cbn in Hlm; lia]).
      rewrite El, En in *. cbn [length insn firstn skipn app] in *. unfold insn in R1. cbn [firstn skipn app map] in R1.
      change (map VList []) with (@nil (val V)). cbn [app].
      match type of R1 with rep _ _ _ ?x _ _ _ _ _ => set (h1 := x) in * end.
      destruct R1 as (HX1 & R1). rewrite HX1. pose proof (conj HX1 R1 : rep L X I h1 (S nx) [nx] [[v]] [] (index c)) as R2.
      pose proof (rep_max _ _ _ _ _ _ _ _ _ [v] R2) as R3. run. split; [reflexivity|].
      replace (Z.of_nat (len c) + 1)%Z with (Z.of_nat (len c + 1)) by lia.
      pose proof (rep_holds L X I _ _ _ _ _ _ (len c + 1) (load c) (offset c) R3) as HH.
      destruct c as [ls ms ix off ln ld]. cbn in *. subst. exact HH.
    - rewrite HX, elts_map. run.
      destruct (bisect_right lt (maxes c) v) as [p|e]; [|discriminate]. run.
      rewrite HX, map_length, eqz_nat. destruct (Nat.eqb_spec p (length (maxes c))) as [Ep|Ep]; run.
      + assert (Hp1 : 1 <= p) by (destruct (maxes c); [discriminate|cbn in Ep; lia]).
        replace (Z.of_nat p - 1)%Z with (Z.of_nat (p - 1)) by lia.
        destruct (updn (lists c) (p - 1) (fun l => Ok (l ++ [v]))) as [ls|] eqn:E1; [|discriminate]. cbn [rbind fst snd] in E.
        destruct (updn_inv _ _ _ _ E1) as (Hpl & l & y & Hl & Hy & Hs). injection Hy as <-.
        cbn [maxes set_lists] in E.
        destruct (setn (maxes c) (p - 1) v) as [ms|] eqn:E2; [|discriminate]. cbn [rbind] in E.
        rewrite HL, getz_map, getz_nat. pose proof (sub_at _ _ _ (p - 1) Hm) as Hsb. rewrite Hl in Hsb.
        destruct Hsb as (id & Hp & Hid). rewrite Hp. run. rewrite Hid.
        change [VElt v] with (map (@VElt V) [v]). rewrite <- map_app.
        pose proof (rep_sub _ _ _ _ _ _ _ _ _ (p - 1) id _ _ R Hp Hs) as R1.
        match type of R1 with rep _ _ _ ?x _ _ _ _ _ => set (h1 := x) in * end. clearbody h1.
        pose proof R1 as (HX1 & _). rewrite HX1, map_length, place_nat.
        destruct (updn_inv _ _ _ _ E2) as (Hpm & _). destruct (Nat.ltb_spec (p - 1) (length (maxes c))); [|lia]. run.
        rewrite setn_map, E2. cbn [rmap]. run.
        pose proof (rep_max _ _ _ _ _ _ _ _ _ ms R1) as R2.
        match type of R2 with rep _ _ _ ?x _ _ _ _ _ => set (h2 := x) in * end. clearbody h2.
        pose proof (rep_holds L X I _ _ _ _ _ _ (len c) (load c) (offset c) R2) as H2.
        match type of E with context [sl_expand ?q ?x] => destruct (sl_expand q x) as [[[]|] c2] eqn:E3; [|discriminate];
          change x with (mkcore ls ms (index c) (offset c) (len c) (load c)) in E3 end.
        injection E as <-.
        eapply wp_mono; [apply (src_expand lt eq n d L X I _ _ c2 (p - 1) H2 E3)|].
        { apply (enough_walk n c (p - 1) Hn). rewrite <- Hlm. exact Hpm. }
        cbv beta. intros r s' (-> & H').
        destruct (holds_rep _ _ _ _ _ H') as (h' & nx' & ids' & -> & R'). run. split; [reflexivity|].
        replace (Z.of_nat (len c2) + 1)%Z with (Z.of_nat (len c2 + 1)) by lia.
        exact (rep_holds L X I _ _ _ _ _ _ (len c2 + 1) (load c2) (offset c2) R').
      + destruct (updn (lists c) p (fun l => insort lt l v)) as [ls|] eqn:E1; [|discriminate]. cbn [rbind fst snd] in E.
        destruct (updn_inv _ _ _ _ E1) as (Hpl & l & y & Hl & Hy & Hs).
        rewrite HL, getz_map, getz_nat. pose proof (sub_at _ _ _ p Hm) as Hsb. rewrite Hl in Hsb.
        destruct Hsb as (id & Hp & Hid). rewrite Hp. run. rewrite Hid, elts_map. run. rewrite Hy. run.
        pose proof (rep_sub _ _ _ _ _ _ _ _ _ p id _ _ R Hp Hs) as R1.
        match type of R1 with rep _ _ _ ?x _ _ _ _ _ => set (h1 := x) in * end. clearbody h1.
        pose proof (rep_holds L X I _ _ _ _ _ _ (len c) (load c) (offset c) R1) as H2.
        match type of E with context [sl_expand ?q ?x] => destruct (sl_expand q x) as [[[]|] c2] eqn:E3; [|discriminate];
          change x with (mkcore ls (maxes c) (index c) (offset c) (len c) (load c)) in E3 end.
        injection E as <-.
        eapply wp_mono; [apply (src_expand lt eq n d L X I _ _ c2 p H2 E3)|].
        { exact (enough_walk n c p Hn Hpl). }
        cbv beta. intros r s' (-> & H').
        destruct (holds_rep _ _ _ _ _ H') as (h' & nx' & ids' & -> & R'). run. split; [reflexivity|].
        replace (Z.of_nat (len c2) + 1)%Z with (Z.of_nat (len c2 + 1)) by lia.
        exact (rep_holds L X I _ _ _ _ _ _ (len c2 + 1) (load c2) (offset c2) R').
  Qed.

  Lemma half_load k : Z.shiftr (Z.of_nat k) 1 = Z.of_nat (k / 2).
  Proof. rewrite Z.shiftr_div_pow2 by lia. change (2 ^ 1)%Z with (Z.of_nat 2). rewrite Nat2Z.inj_div. reflexivity. Qed.
  Lemma deln_lt {A} (l : list A) i l' : deln l i = Ok l' -> i < length l.
  Proof. unfold deln. destruct (Nat.ltb_spec i (length l)); [auto|discriminate]. Qed.

  Lemma src_delete n d L X I s (c c' : core V V) p i : enough c n -> holds L X I s c -> sl_delete p i c = (Ok tt, c') ->
    wp (call lt eq klass n (S (S d)) "_delete" [vnat p; vnat i]) s (fun r s' => r = Ok VNone /\ holds L X I s' c').
  Proof.
    intros Hn H E. enter. destruct (holds_rep _ _ _ _ _ H) as (h & nx & ids & -> & R). pose proof R as (HX & HI & HL & Hm & Hd & Hf).
    unfold sl_delete, bind, get, liftr, ret, modify, modifyR in E.
    destruct (updn (lists c) p (fun l => deln l i)) as [ls|] eqn:E1; [|discriminate]. cbn [rbind] in E.
    destruct (updn_inv _ _ _ _ E1) as (Hpl & l & l1 & Hl & Hl1 & Hs). cbn [len set_lists] in E.
    destruct (subc (len c) 1) as [k|] eqn:E2; [|discriminate]. cbn [rbind] in E. cbn [lists set_len set_lists load maxes] in E.
    unfold subc in E2. destruct (Nat.leb_spec 1 (len c)); [|discriminate]. injection E2 as <-.
    assert (Hg : getn ls p = Ok l1 /\ length ls = length (lists c)).
    { unfold setn in Hs. clear - Hs. revert p ls Hs. induction (lists c) as [|a t IH]; intros p ls Hs; [discriminate|]. destruct p; cbn in Hs.
      - injection Hs as <-. split; reflexivity.
      - destruct (updn t p (fun _ => Ok l1)) eqn:E; [|discriminate]. injection Hs as <-. destruct (IH _ _ E) as (G1 & G2).
        split; [exact G1|]. cbn. f_equal. exact G2. }
    destruct Hg as (Hg & Hlen). rewrite Hg in E.
    run. rewrite HL, getz_map, getz_nat. pose proof (sub_at _ _ _ p Hm) as Hsb. rewrite Hl in Hsb.
    destruct Hsb as (id & Hp & Hid). rewrite Hp. run. rewrite Hid, map_length, place_nat.
    pose proof (deln_lt _ _ _ Hl1) as Hil. destruct (Nat.ltb_spec i (length l)); [|lia]. run.
    rewrite deln_map, Hl1. cbn [rmap]. run.
    pose proof (rep_sub _ _ _ _ _ _ _ _ _ p id _ _ R Hp Hs) as R1.
    rewrite on_same, map_length.
    match type of R1 with rep _ _ _ ?x _ _ _ _ _ => set (h1 := x) in * end.
    assert (Hid1 : h1 id = map VElt l1) by (unfold h1; apply on_same). clearbody h1.
    clear HX HI HL Hm Hd Hf Hid R H. pose proof R1 as (HX & HI & HL & Hm & Hd & Hf).
    change (1 <? 0)%Z with false. run. rewrite half_load, ltz_nat.
    replace (Z.of_nat (len c) - 1)%Z with (Z.of_nat (len c - 1)) by lia.
    destruct (load c / 2 <? length l1) eqn:Eb; run.
    { destruct (getlast l1) as [m|] eqn:E2; [|discriminate]. cbn [rbind maxes set_len set_lists] in E.
      destruct (setn (maxes c) p m) as [ms|] eqn:E3; [|discriminate]. cbn [rbind] in E.
      rewrite Hid1, getz_map, last_z, E2. run. rewrite HX, map_length, place_nat.
      destruct (updn_inv _ _ _ _ E3) as (Hpm & _). destruct (Nat.ltb_spec p (length (maxes c))); [|lia]. run.
      rewrite setn_map, E3. cbn [rmap]. run.
      pose proof (rep_max _ _ _ _ _ _ _ _ _ ms R1) as R2.
      match type of R2 with rep _ _ _ ?x _ _ _ _ _ => set (h2 := x) in * end. clearbody h2.
      clear HX HI HL Hm Hd Hf R1 Hid1. pose proof R2 as (HX & HI & HL & Hm & Hd & Hf).
      rewrite HI, is_nil_map. unfold index_dec in E. cbn [index set_maxes set_len set_lists offset] in E.
      destruct (is_nil (index c)) eqn:En; cbn [negb]; run.
      { injection E as <-. split; [reflexivity|].
        exact (rep_holds L X I _ _ _ _ _ _ (len c - 1) (load c) (offset c) R2). }
      rewrite <- Nat2Z.inj_add. unfold index_walk in E.
      destruct (walk_up (fun k => subc k 1) (S (offset c + p)) (offset c + p) (index c)) as [ix1|] eqn:E4; [|discriminate].
      cbn [rbind] in E. destruct (updn ix1 0 (fun k => subc k 1)) as [ix2|] eqn:E5; [|discriminate]. cbn [rbind] in E. injection E as <-.
      match goal with |- wp (exec ?a ?b ?iv ?n (SWhile ?cn ?bd) ?en) ?s ?Q =>
        change (wp (while_loop n (eval a b iv cn) (exec a b iv n bd) en) s Q) end.
      eapply wp_mono.
      { apply (walk_delete lt eq (call lt eq klass n (S d)) n (vnat p) (vnat i) L X I (VList id) (vnat (length l1)) _ n (offset c + p) (index c) ix1 _ E4); [|exact HI].
        destruct (enough_walk n c p Hn Hpl) as [Hw|Hw]; [rewrite Hw in En; discriminate|exact Hw]. }
      cbv beta. intros r [h3 nx3 a3] (-> & J1 & J2 & J3 & J4). cbn [heap next attrs] in *. subst nx3 a3.
      destruct (updn_inv _ _ _ _ E5) as (Hl0 & x & y & Hx & Hy & Hs5).
      unfold subc in Hy. destruct (Nat.leb_spec 1 x); [|discriminate]. injection Hy as <-.
      run. rewrite J3, getz_map. change 0%Z with (Z.of_nat 0). rewrite getz_nat, Hx. run. rewrite J3, map_length, place_nat.
      destruct (Nat.ltb_spec 0 (length ix1)); [|lia]. run. change 1%Z with (Z.of_nat 1). rewrite <- Nat2Z.inj_sub by lia.
      change (VInt (Z.of_nat (x - 1))) with (@vnat V (x - 1)). rewrite setn_map, Hs5. cbn [rmap]. run.
      split; [reflexivity|].
      assert (R3 : rep L X I h3 nx ids ls ms ix1).
      { apply (rep_ix_any L X I h2 h3 nx nx ids ls ms (index c) ix1 R2); [intros q _ Hq; apply J4, Hq|exact J3|lia]. }
      exact (rep_holds L X I _ _ _ _ _ _ (len c - 1) (load c) (offset c) (rep_ix _ _ _ _ _ _ _ _ _ ix2 R3)). }
    rewrite HL, map_length. change 1%Z with (Z.of_nat 1) at 1. rewrite ltz_nat.
    pose proof (ids_length _ _ _ Hm) as Hidl. rewrite Hidl.
    destruct (1 <? length ls) eqn:Eb2; run.
    { rewrite nzz_nat, negb_involutive.
      set (q := if p =? 0 then p + 1 else p) in *.
      assert (Hq : (p =? 0 = true /\ q = p + 1) \/ (p =? 0 = false /\ q = p)) by (unfold q; destruct (p =? 0); auto).
      assert (Hq1 : 1 <= q) by (destruct Hq as [(_ & ->)|(Eq & ->)]; [lia|]; apply Nat.eqb_neq in Eq; lia).
      clearbody q. cbn [lists set_lists maxes set_len set_maxes] in E.
      destruct (getn ls q) as [l2|] eqn:E2; [|discriminate]. cbn [rbind] in E.
      destruct (updn ls (q - 1) (fun l => Ok (l ++ l2))) as [ls2|] eqn:E3; [|discriminate]. cbn [rbind lists set_lists maxes set_len set_maxes] in E.
      destruct (updn_inv _ _ _ _ E3) as (Hpl3 & l3 & y & Hl3 & Hy & Hs3). injection Hy as <-.
      assert (Hg2 : getn ls2 (q - 1) = Ok (l3 ++ l2)).
      { unfold setn in Hs3. clear - Hs3. revert Hs3. generalize (q - 1) as j. revert ls2. induction ls as [|a t IH]; intros ls2 j Hs; [discriminate|]. destruct j; cbn in Hs.
        - injection Hs as <-. reflexivity.
        - destruct (updn t j (fun _ => Ok (l3 ++ l2))) eqn:E; [|discriminate]. injection Hs as <-. exact (IH _ _ E). }
      rewrite Hg2 in E. cbn [rbind] in E.
      destruct (getlast (l3 ++ l2)) as [m|] eqn:E4; [|discriminate]. cbn [rbind] in E.
      destruct (setn (maxes c) (q - 1) m) as [ms|] eqn:E5; [|discriminate]. cbn [rbind lists set_lists maxes set_len set_maxes] in E.
      destruct (deln ls2 q) as [ls3|] eqn:E6; [|discriminate]. cbn [rbind lists set_lists maxes set_len set_maxes] in E.
      destruct (deln ms q) as [ms3|] eqn:E7; [|discriminate]. cbn [rbind lists set_lists maxes set_len set_maxes] in E.
      pose proof (sub_at _ _ _ q Hm) as Hsb2. rewrite E2 in Hsb2. destruct Hsb2 as (id2 & Hp2 & Hid2).
      pose proof (sub_at _ _ _ (q - 1) Hm) as Hsb3. rewrite Hl3 in Hsb3. destruct Hsb3 as (id3 & Hp3 & Hid3).
      pose proof (rep_sub _ _ _ _ _ _ _ _ _ (q - 1) id3 _ _ R1 Hp3 Hs3) as R2.
      pose proof (rep_max _ _ _ _ _ _ _ _ _ ms R2) as R3.
      destruct (rep_del _ _ _ _ _ _ _ _ _ q _ R3 E6) as (ids4 & Ed & R4).
      pose proof (rep_ix _ _ _ _ _ _ _ _ _ [] (rep_max _ _ _ _ _ _ _ _ _ ms3 R4)) as R5.
      pose proof (rep_holds L X I _ _ _ _ _ _ (len c - 1) (load c) (offset c) R5) as H5.
      destruct (updn_inv _ _ _ _ E5) as (Hpm & _).
      pose proof (rep_dist _ _ _ _ _ _ _ _ _ R1) as (P1 & P2 & P3 & P4 & P5 & P6 & P7 & P8 & P9 & P10 & P11).
      pose proof (getn_in _ _ _ Hp3) as Hin3.
      assert (N1 : id3 <> L /\ id3 <> X /\ id3 <> I) by (repeat split; intros ->; contradiction). destruct N1 as (N1 & N2 & N3).
      pose proof (deln_lt _ _ _ E7) as Hms.
      pose proof (deln_lt _ _ _ Ed) as Hdi.
      destruct Hq as [(-> & Eq)|(-> & Eq)]; run.
      1: replace (Z.of_nat p + 1)%Z with (Z.of_nat q) by lia.
      2: rewrite <- Eq in *.
      all: replace (Z.of_nat q - 1)%Z with (Z.of_nat (q - 1)) by lia.
      all: rewrite HL, !getz_map, !getz_nat, Hp3; run; rewrite HL, getz_map, getz_nat, Hp2; run.
      all: rewrite Hid2, Hid3, <- map_app; run.
      all: rewrite (on_other _ id3 _ L), HL, getz_map, getz_nat, Hp3 by congruence; run.
      all: rewrite on_same, getz_map, last_z, E4; run.
      all: rewrite (on_other _ id3 _ X), HX, map_length, place_nat by congruence.
      all: destruct (Nat.ltb_spec (q - 1) (length (maxes c))); [|lia]; run; rewrite setn_map, E5; cbn [rmap]; run.
      all: rewrite (on_other _ X _ L), (on_other _ id3 _ L), HL, map_length, place_nat by congruence.
      all: destruct (Nat.ltb_spec q (length ids)); [|lia]; run; rewrite deln_map, Ed; cbn [rmap]; run.
      all: rewrite (on_other _ L _ X), on_same, map_length, place_nat by congruence.
      all: destruct (Nat.ltb_spec q (length ms)); [|lia]; run; rewrite deln_map, E7; cbn [rmap]; run; cutall; run.
      all: (eapply wp_mono; [apply (src_expand lt eq n d L X I _ _ c' (q - 1) H5); [exact E|left; reflexivity]|]).
      all: cbv beta; intros r s' (-> & H'); run; split; [reflexivity|exact H']. }
    cbn [lists set_lists maxes set_len set_maxes] in E. rewrite nzz_nat. destruct (Nat.eqb_spec (length l1) 0) as [El1|El1]; cbn [negb]; run.
    - destruct (Nat.ltb_spec 0 (length l1)); [lia|].
      cbn [lists set_lists maxes set_len set_maxes] in E. destruct (deln ls p) as [ls3|] eqn:E6; [|discriminate]. cbn [rbind lists set_lists maxes set_len set_maxes] in E.
      destruct (deln (maxes c) p) as [ms3|] eqn:E7; [|discriminate]. cbn [rbind lists set_lists maxes set_len set_maxes] in E.
      injection E as <-.
      destruct (rep_del _ _ _ _ _ _ _ _ _ p _ R1 E6) as (ids4 & Ed & R4).
      pose proof (rep_ix _ _ _ _ _ _ _ _ _ [] (rep_max _ _ _ _ _ _ _ _ _ ms3 R4)) as R5.
      pose proof (rep_holds L X I _ _ _ _ _ _ (len c - 1) (load c) (offset c) R5) as H5.
      pose proof (rep_dist _ _ _ _ _ _ _ _ _ R1) as (P1 & P2 & P3 & _).
      pose proof (deln_lt _ _ _ E7) as Hms. pose proof (deln_lt _ _ _ Ed) as Hdi.
      rewrite HL, map_length, place_nat. destruct (Nat.ltb_spec p (length ids)); [|lia]. run. rewrite deln_map, Ed. cbn [rmap]. run.
      rewrite (on_other _ L _ X), HX, map_length, place_nat by congruence.
      destruct (Nat.ltb_spec p (length (maxes c))); [|lia]. run. rewrite deln_map, E7. cbn [rmap]. run. cutall. run.
      split; [reflexivity|exact H5].
    - destruct (Nat.ltb_spec 0 (length l1)); [|lia]. cbn [lists set_lists maxes set_len set_maxes] in E.
      destruct (getlast l1) as [m|] eqn:E2; [|discriminate]. cbn [rbind maxes set_len set_lists] in E.
      destruct (setn (maxes c) p m) as [ms|] eqn:E3; [|discriminate]. cbn [rbind] in E. injection E as <-.
      rewrite Hid1, getz_map, last_z, E2. run. rewrite HX, map_length, place_nat.
      destruct (updn_inv _ _ _ _ E3) as (Hpm & _). destruct (Nat.ltb_spec p (length (maxes c))); [|lia]. run.
      rewrite setn_map, E3. cbn [rmap]. run. split; [reflexivity|].
      exact (rep_holds L X I _ _ _ _ _ _ (len c - 1) (load c) (offset c) (rep_max _ _ _ _ _ _ _ _ _ ms R1)).
  Qed.

  Lemma delete_has p i (c : core V V) l x : LShape c -> getn (lists c) p = Ok l -> getn l i = Ok x ->
    exists c', sl_delete p i c = (Ok tt, c').
  Proof.
    intros Hc Hl Hx. assert (HL : Locate (lists c) p i (length (concat (firstn p (lists c))) + i)).
    { unfold getn in Hl. destruct (nth_error (lists c) p) as [y|] eqn:E; [|discriminate]. injection Hl as ->.
      destruct (nth_error_split _ _ E) as (A & B & EA & EL). exists A, l, B. rewrite EA. split; [reflexivity|].
      split; [exact EL|]. split; [exact (getn_lt _ _ _ Hx)|]. rewrite <- EL, firstn_app, firstn_all, Nat.sub_diag. cbn. rewrite app_nil_r. reflexivity. }
    destruct (delete_located (sl_vt lt) LShape (sl_vt_ok lt) c p i _ Hc HL) as (c' & a & y & b & l' & Hdel & _). exists c'. exact Hdel.
  Qed.

  Lemma src_discard n d v L X I s (c c' : core V V) : enough c n -> holds L X I s c -> sl_discard lt eq v c = (Ok tt, c') ->
    wp (call lt eq klass n (S (S (S d))) "discard" [VElt v]) s (fun r s' => r = Ok VNone /\ holds L X I s' c').
  Proof.
    intros Hn H E. enter. destruct (holds_rep _ _ _ _ _ H) as (h & nx & ids & -> & R). pose proof R as (HX & HI & HL & Hm & Hd & Hf).
    unfold sl_discard, bind, get, liftr, ret in E.
    run. rewrite HX, is_nil_map, negb_involutive.
    destruct (is_nil (maxes c)); run. { injection E as <-. split; [reflexivity|exact H]. }
    rewrite HX, elts_map. run.
    destruct (bisect_left lt (maxes c) v) as [p|e]; [|discriminate]. run.
    rewrite HX, map_length, eqz_nat. destruct (p =? length (maxes c)); run. { injection E as <-. split; [reflexivity|exact H]. }
    rewrite HL, getz_map, getz_nat.
    pose proof (sub_at _ _ _ p Hm) as Hs. destruct (getn (lists c) p) as [l|e] eqn:El; [|discriminate].
    destruct Hs as (id & Hp & Hid). rewrite Hp. run. rewrite Hid, elts_map. run.
    destruct (bisect_left lt l v) as [i|e]; [|discriminate]. run.
    rewrite HL, getz_map, getz_nat, Hp. run. rewrite Hid, getz_map, getz_nat.
    destruct (getn l i) as [x|e]; [|discriminate]. run.
    destruct (eq x v) as [[]|e]; [| |discriminate]; run.
    - eapply wp_mono; [apply (src_delete n d L X I _ c c' p i Hn H E)|].
      cbv beta. intros r s' (-> & H'). run. split; [reflexivity|exact H'].
    - injection E as <-. split; [reflexivity|exact H].
  Qed.

  (** [remove]: when it succeeds, and when it raises. *)
  Lemma src_remove n d v L X I s (c c' : core V V) r0 : LShape c -> enough c n -> holds L X I s c -> sl_remove lt eq v c = (r0, c') ->
    wp (call lt eq klass n (S (S (S d))) "remove" [VElt v]) s (fun r s' => r = rmap (fun _ => VNone) r0 /\ holds L X I s' c').
  Proof.
    intros Hc Hn H E. enter. destruct (holds_rep _ _ _ _ _ H) as (h & nx & ids & -> & R). pose proof R as (HX & HI & HL & Hm & Hd & Hf).
    unfold sl_remove, bind, get, liftr, ret, raise in E.
    run. rewrite HX, is_nil_map, negb_involutive.
    destruct (is_nil (maxes c)); run. { injection E as <- <-. split; [reflexivity|exact H]. }
    rewrite HX, elts_map. run.
    destruct (bisect_left lt (maxes c) v) as [p|e]; run; [|injection E as <- <-; split; [reflexivity|exact H]].
    rewrite HX, map_length, eqz_nat. destruct (p =? length (maxes c)); run. { injection E as <- <-. split; [reflexivity|exact H]. }
    rewrite HL, getz_map, getz_nat.
    pose proof (sub_at _ _ _ p Hm) as Hs. destruct (getn (lists c) p) as [l|e] eqn:El.
    2:{ rewrite Hs. run. injection E as <- <-. split; [reflexivity|exact H]. }
    destruct Hs as (id & Hp & Hid). rewrite Hp. run. rewrite Hid, elts_map. run.
    destruct (bisect_left lt l v) as [i|e]; run; [|injection E as <- <-; split; [reflexivity|exact H]].
    rewrite HL, getz_map, getz_nat, Hp. run. rewrite Hid, getz_map, getz_nat.
    destruct (getn l i) as [x|e] eqn:Ex; run; [|injection E as <- <-; split; [reflexivity|exact H]].
    destruct (eq x v) as [[]|e]; run.
    - destruct (delete_has p i c l x Hc El Ex) as (c1 & E1). rewrite E1 in E. injection E as <- <-.
      eapply wp_mono; [apply (src_delete n d L X I _ c c1 p i Hn H E1)|].
      cbv beta. intros r s' (-> & H'). run. split; [reflexivity|exact H'].
    - injection E as <- <-. split; [reflexivity|exact H].
    - injection E as <- <-. split; [reflexivity|exact H].
  Qed.
End Change.

(** * The method __getitem__ on slices (proofs) *)
From Coq Require Import String.
From Verif Require Import IndexFacts SliceFacts CoreFacts Shape VtFacts ListSim Spec.
From Verif Require Import PyBase BaseFacts Model SourceSyntax SourceText SourceSem SourceRep SourceFacts SourceLoops SourceBuild SourceMoves SourceTree SourceMethods SourceChange SourceAdd SourcePos SourcePop SourceFill SourceBulk SourceGet.
Local Open Scope string_scope.
Local Open Scope nat_scope.
Local Open Scope list_scope.
Local Unset Implicit Arguments.

Lemma bounds_nat a b n : bounds (Some (Z.of_nat a)) (Some (Z.of_nat b)) n = (Nat.min a n, Nat.max (Nat.min a n) (Nat.min b n)).
Proof. unfold bounds. rewrite !clamp_nat. reflexivity. Qed.
Lemma bounds_from a n : bounds (Some (Z.of_nat a)) None n = (Nat.min a n, Nat.max (Nat.min a n) n).
Proof. unfold bounds. rewrite clamp_nat. reflexivity. Qed.
Lemma bounds_to b n : bounds None (Some (Z.of_nat b)) n = (0, Nat.max 0 (Nat.min b n)).
Proof. unfold bounds. rewrite clamp_nat. reflexivity. Qed.

Lemma cut_nat {A} (l : list A) a b : slicen l (Nat.min a (length l)) (Nat.max (Nat.min a (length l)) (Nat.min b (length l))) = slicen l a b.
Proof.
  unfold slicen. destruct (Nat.le_gt_cases a (length l)) as [H|H].
  - rewrite Nat.min_l by exact H. destruct (Nat.le_gt_cases b (length l)) as [Hb|Hb].
    + rewrite (Nat.min_l b) by exact Hb. replace (Nat.max a b - a) with (b - a) by lia. reflexivity.
    + rewrite (Nat.min_r b) by lia. rewrite !firstn_all2; [reflexivity| |]; rewrite skipn_length; lia.
  - rewrite Nat.min_r by lia. rewrite !skipn_all2 by lia. rewrite !firstn_nil. reflexivity.
Qed.
Lemma cut_from {A} (l : list A) a : slicen l (Nat.min a (length l)) (Nat.max (Nat.min a (length l)) (length l)) = skipn a l.
Proof.
  rewrite <- (Nat.min_id (length l)) at 3. rewrite cut_nat. unfold slicen. apply firstn_all2. rewrite skipn_length. lia.
Qed.
Lemma cut_to {A} (l : list A) b : slicen l 0 (Nat.max 0 (Nat.min b (length l))) = firstn b l.
Proof.
  change 0 with (Nat.min 0 (length l)). rewrite cut_nat. unfold slicen. rewrite Nat.sub_0_r. reflexivity.
Qed.
Lemma slicen_of {A B} (f : A -> B) l a b : slicen (map f l) a b = map f (slicen l a b).
Proof. unfold slicen. rewrite skipn_map, firstn_map. reflexivity. Qed.
Lemma slicen_in {A} (l : list A) a b x : In x (slicen l a b) -> In x l.
Proof.
  unfold slicen. intros H. rewrite <- (firstn_skipn a l). apply in_app_iff. right.
  rewrite <- (firstn_skipn (b - a) (skipn a l)). apply in_app_iff. left. exact H.
Qed.

Lemma wp_bind_mono {S A B} (m : M S A) (k : A -> M S B) s (P : res A -> S -> Prop) (Q : res B -> S -> Prop) :
  wp m s P -> (forall a s', P (Ok a) s' -> wp (k a) s' Q) -> (forall e s', P (Err e) s' -> Q (Err e) s') -> wp (bind m k) s Q.
Proof. intros H H1 H2. apply wp_bind. eapply wp_mono; [exact H|]. intros [a|e] s' HP; auto. Qed.

Section Slice.
  Context {V : Type} (lt eq : V -> V -> res bool).

  Lemma src_get_all n d L X I en : find "self" en = Some VSelf -> forall idxs s (c : core V V), LShape c -> enough c n -> holds L X I s c ->
    wp (mapM (fun w => eval lt eq (call lt eq klass n (S (S (S d)))) (ECall (EAttr (EName "self") "_getitem") [EName "index"]) (put "index" w en)) (map VInt idxs)) s
       (fun r s' => r = rmap (map VElt) (fst (mapM getitem_int idxs c)) /\ holds L X I s' (snd (mapM getitem_int idxs c)) /\ still I s s' /\
          LShape (snd (mapM getitem_int idxs c)) /\ enough (snd (mapM getitem_int idxs c)) n).
  Proof.
    intros F. induction idxs as [|i idxs IH]; intros s c Hc Hn H.
    - cbn [map mapM]. apply wp_ret. cbn. split; [reflexivity|]. split; [exact H|]. split; [apply still_refl|auto].
    - cbn [map mapM]. eapply wp_bind_mono with (P := fun r s' => r = rmap VElt (fst (getitem_int i c)) /\ holds L X I s' (snd (getitem_int i c)) /\ still I s s' /\
          LShape (snd (getitem_int i c)) /\ enough (snd (getitem_int i c)) n).
      { destruct (holds_rep _ _ _ _ _ H) as (h & nx & ids & -> & R). run. fp. rewrite F. run. fp. run.
        exact (src_get_int lt eq n d L X I _ c i "_getitem" ltac:(cbn; auto) Hc Hn H). }
      + intros a s1 (E & H1 & Hs1 & Hc1 & Hn1). unfold bind. destruct (getitem_int i c) as [[x|e] c1]; [|discriminate]. injection E as ->.
        cbn [fst snd] in *. eapply wp_bind_mono; [exact (IH s1 c1 Hc1 Hn1 H1)| |].
        * cbv beta. intros l s2 (E2 & H2 & Hs2 & Hc2 & Hn2). apply wp_ret. destruct (mapM getitem_int idxs c1) as [[y|e] c2]; [|discriminate].
          injection E2 as ->. cbn in *. split; [reflexivity|]. split; [exact H2|]. split; [exact (still_trans _ _ _ _ Hs1 Hs2)|auto].
        * cbv beta. intros e s2 (E2 & H2 & Hs2 & Hc2 & Hn2). destruct (mapM getitem_int idxs c1) as [[y|e1] c2]; [discriminate|].
          injection E2 as ->. cbn in *. split; [reflexivity|]. split; [exact H2|]. split; [exact (still_trans _ _ _ _ Hs1 Hs2)|auto].
      + intros e s1 (E & H1 & Hs1 & Hc1 & Hn1). unfold bind. destruct (getitem_int i c) as [[x|e1] c1]; [discriminate|]. injection E as ->.
        cbn in *. auto.
  Qed.

  (** What the caller gets: a new list with the values of the model. *)
  Definition gives (L X I n : nat) (s : st V) (m : res (list V) * core V V) (r : res (val V)) (s' : st V) : Prop :=
    match fst m with
    | Ok l => exists q, r = Ok (VList q) /\ next s <= q < next s' /\ heap s' q = map VElt l
    | Err e => r = Err e
    end /\ holds L X I s' (snd m) /\ still I s s' /\ LShape (snd m) /\ enough (snd m) n.

  (** The branch of a forward slice. *)
  Definition fwd_of : stmt := Eval vm_compute in
    match lookup klass 100 "__getitem__" klass with
    | Some (_, SSeq _ (SIf _ (SSeq _ (SSeq (SIf _ b _) _)) _)) => b
    | _ => SPass
    end.

  Lemma gives_end L X I n s (c1 : core V V) h1 nx1 h2 nx2 q l :
    holds L X I (mkst h1 nx1 (slots (len c1) (load c1) L X I (offset c1))) c1 ->
    still I s (mkst h1 nx1 (slots (len c1) (load c1) L X I (offset c1))) -> LShape c1 -> enough c1 n ->
    (forall x, x < nx1 -> h2 x = h1 x) -> nx1 <= q < nx2 -> h2 q = map VElt l ->
    gives L X I n s (Ok l, c1) (Ok (VList q)) (mkst h2 nx2 (slots (len c1) (load c1) L X I (offset c1))).
  Proof.
    intros H Hst Hc Hn Hk Hq Hl. unfold gives. cbn [fst snd]. split; [|split; [|split; [|split; assumption]]].
    - exists q. destruct Hst as (Hst & _). cbn [next heap] in *. split; [reflexivity|]. split; [lia|exact Hl].
    - destruct (holds_inv _ _ _ _ _ H) as (h & nx & ids & E & R). injection E as <- <-.
      assert (R2 : rep L X I h2 nx2 ids (lists c1) (maxes c1) (index c1)).
      { apply (rep_ix_any L X I h1 h2 nx1 nx2 ids _ _ (index c1) _ R); [intros; apply Hk; assumption| |lia].
        pose proof (rep_dist _ _ _ _ _ _ _ _ _ R) as (P1 & P2 & P3 & P4 & P5 & P6 & P7 & P8 & P9 & P10 & P11).
        rewrite Hk by exact P10. apply R. }
      pose proof (rep_holds L X I _ _ _ _ _ _ (len c1) (load c1) (offset c1) R2) as G. clear - G. destruct c1. exact G.
    - eapply still_trans; [exact Hst|]. split; cbn [next heap]; [lia|]. intros x Hx _. apply Hk, Hx.
  Qed.

  (** A list nobody else has may be changed. *)
  Lemma map_VList_inj (a b : list nat) : map (@VList V) a = map VList b -> a = b.
  Proof. revert b. induction a as [|x a IH]; intros [|y b] H; try discriminate; [reflexivity|]. cbn in H. injection H as -> H. f_equal. apply IH, H. Qed.
  Lemma apart L X I (s s' : st V) c c1 q : holds L X I s c -> holds L X I s' c1 -> still I s s' -> next s <= q ->
    forall ids, heap s' L = map VList ids -> ~ In q (L :: X :: I :: ids).
  Proof.
    intros H H1 (Hn & Hk) Hq ids Hi. destruct (holds_rep _ _ _ _ _ H) as (h & nx & ids0 & -> & R). pose proof R as (_ & _ & HL & _).
    pose proof (rep_dist _ _ _ _ _ _ _ _ _ R) as (P1 & P2 & P3 & P4 & P5 & P6 & P7 & P8 & P9 & P10 & P11). cbn [heap next] in *.
    rewrite (Hk L P8 P2), HL in Hi. apply map_VList_inj in Hi. subst ids0. rewrite Forall_forall in P11. cbn [In].
    intros [E|[E|[E|E]]]; [lia|lia|lia|]. specialize (P11 _ E). lia.
  Qed.
  Lemma holds_over L X I (s s' : st V) c c1 q l : holds L X I s c -> holds L X I s' c1 -> still I s s' -> next s <= q ->
    holds L X I (mkst (on (heap s') q l) (next s') (attrs s')) c1.
  Proof.
    intros H H1 Hst Hq. destruct (holds_rep _ _ _ _ _ H1) as (h1 & nx1 & ids1 & -> & R1). pose proof R1 as (_ & _ & HL1 & _).
    pose proof (apart L X I s _ c c1 q H H1 Hst Hq ids1 HL1) as Ha. cbn [heap next attrs].
    pose proof (rep_holds L X I _ _ _ _ _ _ (len c1) (load c1) (offset c1) (rep_over L X I h1 nx1 ids1 _ _ _ q l R1 Ha)) as G.
    clear - G. destruct c1. exact G.
  Qed.
  Lemma gives_over L X I n s c c1 q l l' s' : holds L X I s c -> gives L X I n s (Ok l, c1) (Ok (VList q)) s' ->
    gives L X I n s (Ok l', c1) (Ok (VList q)) (mkst (on (heap s') q (map VElt l')) (next s') (attrs s')).
  Proof.
    intros H ((q0 & E & Hq & Hh) & H1 & Hst & Hc & Hn). injection E as <-. unfold gives. cbn [fst snd] in *.
    split; [|split; [|split; [|split; assumption]]].
    - exists q. cbn [next heap]. split; [reflexivity|]. split; [exact Hq|apply on_same].
    - exact (holds_over L X I s s' c c1 q _ H H1 Hst (proj1 Hq)).
    - destruct Hst as (Ha & Hb). split; cbn [next heap]; [exact Ha|]. intros x Hx Hne. rewrite on_other by lia. apply Hb; assumption.
  Qed.

  Lemma src_fwd n d L X I s (c : core V V) start stop v :
    LShape c -> enough c n -> holds L X I s c -> (0 <= start < stop)%Z -> (stop <= Z.of_nat (len c))%Z ->
    wp (exec lt eq (call lt eq klass n (S (S d))) n fwd_of
          [("self", VSelf); ("index", v); ("_lists", VList L); ("start", VInt start); ("stop", VInt stop); ("step", VInt 1)]) s
       (fun r s' => exists w, r = Ok (Done w) /\ gives L X I n s (getitem_fwd start stop c) (Ok w) s').
  Proof.
    intros Hc Hn H Hs Hst. pose proof (lshape_core _ Hc) as HC. unfold fwd_of.
    destruct (holds_rep _ _ _ _ _ H) as (h & nx & ids & -> & R). pose proof R as (HX & HI & HL & Hm & Hd & Hf).
    pose proof (rep_dist _ _ _ _ _ _ _ _ _ R) as (P1 & P2 & P3 & P4 & P5 & P6 & P7 & P8 & P9 & P10 & P11).
    rewrite Forall_forall in P11.
    unfold getitem_fwd. rewrite bind_get. apply wp_seq.
    destruct ((start =? 0) && (stop =? Z.of_nat (len c)))%Z eqn:Eall.
    { apply andb_true_iff in Eall. destruct Eall as (Ea & Eb). run. rewrite Ea. run. rewrite Eb. run. rewrite on_other, HL by lia.
      destruct (src_reduce nx (S nx) (slots (len c) (load c) L X I (offset c)) ids (lists c) (on h nx []) []) as (h1 & E1 & Hr1 & Hk1).
      { apply on_same. } { intros Hi. specialize (P11 _ Hi). lia. }
      { rewrite map_on_out; [exact Hm|]. intros Hi. specialize (P11 _ Hi). lia. }
      eapply wp_eq; [exact E1|]. run. exists (VList nx). split; [reflexivity|].
      apply (gives_end L X I n _ c h nx); try assumption; try lia; [apply still_refl|].
      intros x Hx. rewrite Hk1, on_other by lia. reflexivity. }
    eapply wp_mono with (P := fun r s' => r = Ok (Go [("self", VSelf); ("index", v); ("_lists", VList L); ("start", VInt start); ("stop", VInt stop); ("step", VInt 1)])
      /\ s' = mkst h nx (slots (len c) (load c) L X I (offset c))).
    { run. destruct (start =? 0)%Z; cbn [andb] in Eall; run; [rewrite Eall; run|]; split; reflexivity. }
    cbv beta. intros r s' (-> & ->). clear Eall. run.
    destruct (pos_of_ok c start HC) as (p & i & c1 & E1 & Ht & Hloc).
    { unfold norm. destruct (Z.ltb_spec start 0); lia. }
    rewrite (bind_ok _ _ _ _ _ E1). cbn [fst snd].
    destruct (pos_enough n start c c1 (p, i) Hc Hn E1) as (Hc1 & Hn1 & _).
    eapply wp_mono; [apply (src_pos_still lt eq n d L X I _ c c1 start p i H E1 Hn HC)|].
    cbv beta. intros r s' (-> & H1 & Hst1).
    destruct (holds_rep _ _ _ _ _ H1) as (h1 & nx1 & ids1 & -> & R1). pose proof R1 as (_ & _ & HL1 & Hm1 & _).
    run. cbn [bind_names bind_name]. run. names. run.
    destruct (locate_get _ _ _ _ Hloc) as (l & Hgp & _ & Hil & _).
    rewrite (bind_lift _ _ _ _ Hgp). rewrite <- (touch_lists _ _ Ht) in Hgp.
    pose proof (sub_at _ _ _ p Hm1) as Hs1. rewrite Hgp in Hs1. destruct Hs1 as (id1 & Hp1 & Hid1).
    rewrite HL1, getz_map, getz_nat, Hp1. run. rewrite Hid1, map_length.
    replace (Z.of_nat i + stop - start)%Z with (Z.of_nat (i + Z.to_nat (stop - start))) by lia. rewrite lez_nat.
    set (j := i + Z.to_nat (stop - start)) in *.
    destruct (Nat.leb_spec j (length l)) as [Hj|Hj].
    { run. rewrite Hid1, map_length, bounds_nat. cbv beta iota. run.
      exists (VList nx1). split; [reflexivity|]. unfold ret.
      apply (gives_end L X I n _ c1 h1 nx1); try assumption; try lia.
      - intros x Hx. apply on_other. lia.
      - rewrite on_same, slicen_of, cut_nat. reflexivity. }
    upto_if. unfold ret.
    set (en1 := [("self", VSelf); ("index", v); ("_lists", VList L); ("start", VInt start); ("stop", VInt stop); ("step", VInt 1);
                 ("start_pos", vnat p); ("start_idx", vnat i); ("start_list", VList id1); ("stop_idx", vnat j)]).
    assert (Hq : exists p2 j2 c2, (if (stop =? Z.of_nat (len c))%Z
                   then (l0 <- liftr (getn (lists c) (length (lists c) - 1));; (fun s => (Ok (length (lists c) - 1, length l0), s)))
                   else pos_of stop) c1 = (Ok (p2, j2), c2) /\ lists c2 = lists c /\ LShape c2 /\ enough c2 n /\
      p2 < length (lists c) /\
      wp (exec lt eq (call lt eq klass n (S (S d))) n
        (SIf (ECmp Qeq (EName "stop") (EAttr (EName "self") "_len"))
           (SSeq (SAssign (EName "stop_pos") (EBin Osub (ECall (EName "len") [EName "_lists"]) (ENum 1)))
              (SAssign (EName "stop_idx") (ECall (EName "len") [EIndex (EName "_lists") (EName "stop_pos")])))
           (SAssign (ETuple [EName "stop_pos"; EName "stop_idx"]) (ECall (EAttr (EName "self") "_pos") [EName "stop"]))) en1)
        (mkst h1 nx1 (slots (len c1) (load c1) L X I (offset c1)))
        (fun r s' => r = Ok (Go (put "stop_pos" (vnat p2) (put "stop_idx" (vnat j2) en1))) /\ holds L X I s' c2 /\
           still I (mkst h1 nx1 (slots (len c1) (load c1) L X I (offset c1))) s')).
    { pose proof (ids_length _ _ _ Hm1) as Hidl. rewrite (touch_lists _ _ Ht) in *. pose proof (touch_len _ _ Ht) as Htl.
      assert (Hp : p < length (lists c)) by exact (getn_lt _ _ _ Hgp).
      destruct (Z.eqb_spec stop (Z.of_nat (len c))) as [He|He].
      - destruct (getn_has (lists c) (length (lists c) - 1) ltac:(lia)) as (ll & Hll).
        exists (length (lists c) - 1), (length ll), c1. rewrite (bind_lift _ _ _ _ Hll).
        split; [reflexivity|]. split; [exact (touch_lists _ _ Ht)|]. split; [exact Hc1|]. split; [exact Hn1|]. split; [lia|].
        unfold en1. run. rewrite Htl. rewrite (proj2 (Z.eqb_eq _ _) He). run. rewrite HL1, map_length, Hidl. run.
        replace (Z.of_nat (length (lists c)) - 1)%Z with (Z.of_nat (length (lists c) - 1)) by lia. rewrite getz_map, getz_nat.
        pose proof (sub_at _ _ _ (length (lists c) - 1) Hm1) as Hsl. rewrite Hll in Hsl. destruct Hsl as (idl & Hpl & Hidll).
        rewrite Hpl. run. rewrite Hidll, map_length. split; [reflexivity|]. rewrite <- Htl. split; [exact H1|apply still_refl].
      - destruct (pos_of_ok c1 stop (lshape_core _ Hc1)) as (p2 & j2 & c2 & E2 & Ht2 & Hloc2).
        { unfold norm. destruct (Z.ltb_spec stop 0); lia. }
        destruct (pos_enough n stop c1 c2 (p2, j2) Hc1 Hn1 E2) as (Hc2 & Hn2 & _).
        exists p2, j2, c2. split; [exact E2|]. split; [rewrite (touch_lists _ _ Ht2); exact (touch_lists _ _ Ht)|].
        split; [exact Hc2|]. split; [exact Hn2|]. destruct (locate_get _ _ _ _ Hloc2) as (l2 & Hgp2 & _).
        rewrite (touch_lists _ _ Ht) in Hgp2. split; [exact (getn_lt _ _ _ Hgp2)|].
        unfold en1. run. rewrite Htl. rewrite (proj2 (Z.eqb_neq _ _) He). run. rewrite <- Htl.
        eapply wp_mono; [apply (src_pos_still lt eq n d L X I _ c1 c2 stop p2 j2 H1 E2 Hn1 (lshape_core _ Hc1))|].
        cbv beta. intros r s' (-> & H2 & Hst2). run. cbn [bind_names bind_name]. run. split; [reflexivity|]. split; assumption. }
    destruct Hq as (p2 & j2 & c2 & E2 & Hl2 & Hc2 & Hn2 & Hp2 & Hq).
    eapply wp_mono; [exact Hq|]. cbv beta. intros r s' (-> & H2 & Hst2). clear Hq.
    rewrite (bind_ok _ _ _ _ _ E2). cbn [fst snd]. unfold en1. names.
    destruct (holds_rep _ _ _ _ _ H2) as (h2 & nx2 & ids2 & -> & R2). pose proof R2 as (_ & _ & HL2 & Hm2 & _).
    rewrite Hl2 in Hm2. rewrite (touch_lists _ _ Ht) in Hgp.
    rewrite (bind_lift _ _ _ _ Hgp). destruct (getn_has _ _ Hp2) as (l2 & Hgp2). rewrite (bind_lift _ _ _ _ Hgp2).
    pose proof (sub_at _ _ _ p Hm2) as Hsp. rewrite Hgp in Hsp. destruct Hsp as (idp & Hpp & Hidp).
    pose proof (sub_at _ _ _ p2 Hm2) as Hsp2. rewrite Hgp2 in Hsp2. destruct Hsp2 as (idp2 & Hpp2 & Hidp2).
    pose proof (rep_dist _ _ _ _ _ _ _ _ _ R2) as (Q1 & Q2 & Q3 & Q4 & Q5 & Q6 & Q7 & Q8 & Q9 & Q10 & Q11). rewrite Forall_forall in Q11.
    run. rewrite HL2, getz_map, getz_nat, Hpp. run. rewrite Hidp, map_length, bounds_from. run.
    rewrite on_other, HL2, map_length by lia.
    replace (Z.of_nat p + 1)%Z with (Z.of_nat (p + 1)) by lia. rewrite bounds_nat. run.
    rewrite slicen_of, cut_from. rewrite on_same.
    rewrite slicen_of, cut_nat.
    set (h3 := on (on h2 nx2 (map VElt (skipn i l))) (S nx2) (map VList (slicen ids2 (p + 1) p2))).
    assert (Hlow : forall x, x < nx2 -> h3 x = h2 x) by (intros x Hx; unfold h3; rewrite !on_other by lia; reflexivity).
    destruct (src_reduce nx2 (S (S nx2)) (slots (len c2) (load c2) L X I (offset c2)) (slicen ids2 (p + 1) p2) (slicen (lists c) (p + 1) p2) h3 (skipn i l)) as (h4 & E4 & Hr4 & Hk4).
    { unfold h3. rewrite on_other, on_same by lia. reflexivity. }
    { intros Hi. specialize (Q11 _ (slicen_in _ _ _ _ Hi)). lia. }
    { transitivity (map h2 (slicen ids2 (p + 1) p2)); [|rewrite <- !slicen_of, Hm2; reflexivity].
      apply map_ext_in. intros x Hx. apply Hlow, Q11, (slicen_in _ _ _ _ Hx). }
    eapply wp_eq; [exact E4|].
    assert (Hlow4 : forall x, x < nx2 -> h4 x = h2 x) by (intros x Hx; rewrite Hk4 by lia; apply Hlow, Hx).
    run. rewrite (Hlow4 L) by exact Q8. rewrite HL2, getz_map, getz_nat, Hpp2. run. rewrite Hlow4, Hidp2, map_length, bounds_to.
    2:{ apply Q11. exact (getn_in _ _ _ Hpp2). }
    run. rewrite on_same, on_other, Hr4, slicen_of, cut_to, <- map_app by lia.
    exists (VList nx2). split; [reflexivity|].
    apply (gives_end L X I n _ c2 h2 nx2); try assumption; try lia.
    - exact (still_trans _ _ _ _ Hst1 Hst2).
    - intros x Hx. rewrite !on_other by lia. apply Hlow4, Hx.
    - apply on_same.
  Qed.

  Ltac upto_cond := cbv beta iota; repeat lazymatch goal with |- wp (exec _ _ _ _ (SSeq (SIf (EAnd (ECmp Qeq (EName "start") (ENum 0)) _) _ _) _) _) _ _ => fail | _ => ev end.
  Lemma src_slice_rec n d L X I : forall f (s : st V) (c : core V V) sl name, In name ["__getitem__"; "_getitem"] ->
    LShape c -> enough c n -> holds L X I s c -> fst (getitem_slice_rec f sl c) <> Err OutOfFuel ->
    wp (call lt eq klass n (f + S (S (S d))) name [VSlice sl]) s (gives L X I n s (getitem_slice_rec f sl c)).
  Proof.
    induction f as [|f IH]; intros s c sl name Hname Hc Hn H Hout. { exfalso. apply Hout. reflexivity. }
    assert (Hq : wp (call lt eq klass n (S f + S (S (S d))) "__getitem__" [VSlice sl]) s (gives L X I n s (getitem_slice_rec (S f) sl c))).
    2:{ destruct Hname as [<-|[<-|[]]]; exact Hq. }
    clear name Hname. pose proof (lshape_core _ Hc) as HC.
    cbn [getitem_slice_rec] in *. rewrite bind_get in *.
    destruct (holds_rep _ _ _ _ _ H) as (h & nx & ids & -> & R). pose proof R as (HX & HI & HL & Hm & Hd & Hf).
    pose proof (rep_dist _ _ _ _ _ _ _ _ _ R) as (P1 & P2 & P3 & P4 & P5 & P6 & P7 & P8 & P9 & P10 & P11).
    match goal with |- wp _ ?s0 _ => set (ss := s0) in * end.
    replace (f + S (S (S d))) with (S (S (S (f + d)))) in IH by lia. replace (S f + S (S (S d))) with (S (S (S (S (f + d))))) by lia.
    set (D := f + d) in *. enter. unfold ss. run.
    destruct (Z.ltb_spec (Z.of_nat (len c)) 0) as [Hneg|_]; [lia|]. run. rewrite Nat2Z.id.
    destruct (slice_indices sl (len c)) as [[[start stop] step]|e] eqn:Es.
    2:{ run. unfold bind, liftr, gives. cbn [fst snd]. split; [reflexivity|]. split; [exact H|]. split; [apply still_refl|auto]. }
    rewrite (bind_lift (Ok (start, stop, step)) _ c _ eq_refl) in *.
    destruct (slice_indices_Ok _ _ _ _ _ Es) as (Hst0 & Hpos & Hnegs).
    run. cbn [bind_names bind_name]. upto_if. names.
    set (en1 := [("self", VSelf); ("index", VSlice sl); ("_lists", VList L); ("start", VInt start); ("stop", VInt stop); ("step", VInt step)]) in *.
    destruct ((step =? 1)%Z && (start <? stop)%Z) eqn:E1.
    { apply andb_true_iff in E1. destruct E1 as (Ea & Eb). apply Z.eqb_eq in Ea. subst step. specialize (Hpos ltac:(lia)). apply Z.ltb_lt in Eb.
      unfold en1. upto_cond. change (1 =? 1)%Z with true. upto_cond. rewrite (proj2 (Z.ltb_lt _ _) Eb). upto_cond.
      eapply wp_mono; [exact (src_fwd n (S D) L X I ss c start stop (VSlice sl) Hc Hn H ltac:(lia) ltac:(lia))|].
      cbv beta. intros r s' (w & -> & Hg). cbv iota. exact Hg. }
    eapply wp_mono with (P := fun r s' => r = Ok (Go en1) /\ s' = ss).
    { unfold en1, ss. run. destruct (step =? 1)%Z; cbn [andb] in E1; run; [rewrite E1; run|]; split; reflexivity. }
    cbv beta. intros r s' (-> & ->). clear E1. upto_if.
    destruct ((step =? -1)%Z && (stop <? start)%Z) eqn:E1.
    { apply andb_true_iff in E1. destruct E1 as (Ea & Eb). apply Z.eqb_eq in Ea. subst step. 
      unfold en1, ss. run. change (- (1))%Z with (-1)%Z. change (-1 =? -1)%Z with true. run. rewrite Eb. run.
      set (sl' := mkslice (Some (stop + 1)%Z) (Some (start + 1)%Z) None) in *.
      assert (Hout' : fst (getitem_slice_rec f sl' c) <> Err OutOfFuel).
      { intros E. apply Hout. unfold bind. destruct (getitem_slice_rec f sl' c) as [[l|e] c1]; [discriminate|]. cbn in E |- *. congruence. }
      eapply wp_mono; [exact (IH ss c sl' "_getitem" ltac:(cbn; auto) Hc Hn H Hout')|].
      assert (Em : (result <- getitem_slice_rec f sl' ;; ret (rev result)) c =
        match getitem_slice_rec f sl' c with (Ok l, c1) => (Ok (rev l), c1) | (Err e, c1) => (Err e, c1) end)
        by (unfold bind, ret; destruct (getitem_slice_rec f sl' c) as [[]]; reflexivity).
      rewrite Em. clear Em. intros r s' Hg. destruct (getitem_slice_rec f sl' c) as [[l|e] c1].
      - pose proof Hg as ((q & -> & Hq & Hh) & H1 & Hst & _). cbn [fst snd] in *.
        destruct (holds_rep _ _ _ _ _ H1) as (h1 & nx1 & ids1 & -> & R1). run. cbn [heap] in Hh. rewrite Hh, <- map_rev.
        exact (gives_over L X I n ss c c1 q l (rev l) _ H Hg).
      - pose proof Hg as (Er & Hg'). cbn [fst] in Er. rewrite Er. run. split; [reflexivity|exact Hg']. }
    eapply wp_mono with (P := fun r s' => r = Ok (Go en1) /\ s' = ss).
    { unfold en1, ss. run. change (- (1))%Z with (-1)%Z. destruct (step =? -1)%Z; cbn [andb] in E1; run; [rewrite E1; run|]; split; reflexivity. }
    cbv beta. intros r s' (-> & ->). clear E1. unfold en1. run. rewrite (proj2 (Z.eqb_neq step 0) Hst0). run.
    set (en2 := [("self", VSelf); ("index", VSlice sl); ("_lists", VList L); ("start", VInt start); ("stop", VInt stop); ("step", VInt step);
                 ("indices", VRange start stop step)]).
    eapply wp_mono; [exact (src_get_all n D L X I en2 eq_refl (rangez start stop step) ss c Hc Hn H)|].
    cbv beta. intros r s' (-> & H1 & Hst & Hc1 & Hn1). destruct (mapM getitem_int (rangez start stop step) c) as [[l|e] c1]; cbn [fst snd rmap] in *.
    - destruct (holds_rep _ _ _ _ _ H1) as (h1 & nx1 & ids1 & -> & R1). run. rewrite on_same.
      apply (gives_end L X I n ss c1 h1 nx1); try assumption; try lia.
      + intros x Hx. rewrite !on_other by lia. reflexivity.
      + apply on_same.
    - run. unfold gives. cbn [fst snd]. auto.
  Qed.

  Lemma sp_slice_fuel sl (l : list V) : sp_slice sl l <> Err OutOfFuel.
  Proof.
    unfold sp_slice. destruct (slice_indices sl (length l)) as [[[a b] k]|e] eqn:E; cbn [rbind].
    - generalize (rangez a b k). clear E. induction l0 as [|z t IH]; [discriminate|]. cbn [mapR]. 
      destruct (getz l z) as [x|e] eqn:Ez; cbn [rbind].
      + destruct (mapR (getz l) t); [discriminate|]. cbn. congruence.
      + unfold getz, getn in Ez. destruct (_ <? 0)%Z in Ez; [congruence|]. destruct (nth_error l _); congruence.
    - unfold slice_indices in E. cbv zeta in E. destruct (_ =? 0)%Z; congruence.
  Qed.

  Lemma src_slice n d L X I (s : st V) (c : core V V) sl name : In name ["__getitem__"; "_getitem"] ->
    LShape c -> enough c n -> holds L X I s c ->
    wp (call lt eq klass n (S (S (S (S (S d))))) name [VSlice sl]) s (gives L X I n s (getitem_slice sl c)).
  Proof.
    intros Hname Hc Hn H. apply (src_slice_rec n d L X I 2 s c sl name Hname Hc Hn H).
    destruct (getitem_slice_ok c sl (lshape_core _ Hc)) as (c' & E & _). unfold getitem_slice in E. rewrite E. apply sp_slice_fuel.
  Qed.
End Slice.

(** * The methods __iter__, __reversed__, islice and irange (proofs) *)
From Coq Require Import String.
From Verif Require Import IndexFacts SliceFacts CoreFacts Shape VtFacts ListSim Spec.
From Verif Require Import PyBase BaseFacts Model SourceSyntax SourceText SourceSem SourceRep SourceFacts SourceLoops SourceBuild SourceMoves SourceTree SourceMethods SourceChange SourceAdd SourcePos SourcePop SourceFill SourceBulk SourceGet SourceSlice.
Local Open Scope string_scope.
Local Open Scope nat_scope.
Local Open Scope list_scope.
Local Unset Implicit Arguments.

Lemma rangez_nat a b : rangez (Z.of_nat a) (Z.of_nat b) 1 = map Z.of_nat (rangen a b).
Proof.
  unfold rangez, rangen, range_len. change (0 <? 1)%Z with true. cbv iota.
  match goal with |- map _ (seq 0 ?k) = _ => replace k with (b - a) end.
  2:{ rewrite Z.div_1_r. lia. }
  rewrite <- (Nat.add_0_r a) at 2. generalize 0. induction (b - a) as [|k IH]; intros i; [reflexivity|]. cbn [seq map].
  f_equal; [lia|]. rewrite IH. rewrite Nat.add_succ_r. reflexivity.
Qed.

Lemma rangez_0 b : rangez 0 (Z.of_nat b) 1 = map Z.of_nat (rangen 0 b).
Proof. exact (rangez_nat 0 b). Qed.

Section Iter.
  Context {V : Type} (lt eq : V -> V -> res bool).

  Lemma map_get {A} (f : A -> val V) q row : forall is l s, heap s q = map f row -> mapR (getn row) is = Ok l ->
    mapM (fun x => list_method lt q "__getitem__" [x]) (map VInt (map Z.of_nat is)) s = (Ok (map f l), s).
  Proof.
    intros is l s Hq. revert l. induction is as [|i is IH]; intros l E. { injection E as <-. reflexivity. }
    cbn [mapR] in E. destruct (getn row i) as [x|] eqn:Ex; [|discriminate]. cbn [rbind] in E.
    destruct (mapR (getn row) is) as [t|]; [|discriminate]. injection E as <-.
    assert (Eh : list_method lt q "__getitem__" [VInt (Z.of_nat i)] s = (Ok (f x), s)).
    { cbn [list_method String.eqb Ascii.eqb Bool.eqb int_of]. unfold bind, ret, load_at, liftr. rewrite Hq, getz_map, getz_nat, Ex. reflexivity. }
    cbn [map mapM]. unfold bind at 1. rewrite Eh. unfold bind at 1. rewrite (IH t eq_refl). reflexivity.
  Qed.

  Lemma map_rev_lists a : forall js h nx, (forall j, In j js -> j < nx) ->
    exists h', mapM (fun x => prim "reversed" [x]) (map VList js) (mkst h nx a) = (Ok (map (@VIter V) (seq nx (length js))), mkst h' (nx + length js) a) /\
      (forall q, q < nx -> h' q = h q) /\ map h' (seq nx (length js)) = map (fun j => rev (h j)) js.
  Proof.
    induction js as [|j js IH]; intros h nx Hj. { exists h. rewrite Nat.add_0_r. auto. }
    destruct (IH (on h nx (rev (h j))) (S nx)) as (h' & E & Hk & Hr). { intros x Hx. specialize (Hj x (or_intror Hx)). lia. }
    exists h'. split; [|split].
    - assert (Eh : prim "reversed" [VList j] (mkst h nx a) = (Ok (VIter nx), mkst (on h nx (rev (h j))) (S nx) a)) by reflexivity.
      cbn [map mapM]. unfold bind at 1. rewrite Eh. unfold bind at 1. rewrite E. cbn [length seq map]. replace (nx + S (length js)) with (S nx + length js) by lia. reflexivity.
    - intros q Hq. rewrite Hk, on_other by lia. reflexivity.
    - cbn [length seq map]. rewrite Hk, on_same by lia. f_equal. rewrite Hr. apply map_ext_in. intros x Hx.
      rewrite on_other; [reflexivity|]. specialize (Hj x (or_intror Hx)). lia.
  Qed.
  Lemma drain a nx : forall ks h, NoDup ks ->
    exists h', mapM elems (map (@VIter V) ks) (mkst h nx a) = (Ok (map h ks), mkst h' nx a) /\ (forall q, ~ In q ks -> h' q = h q).
  Proof.
    induction ks as [|k ks IH]; intros h Hd. { exists h. auto. } inversion Hd as [|? ? N D]; subst.
    destruct (IH (on h k []) D) as (h' & E & Hk). exists h'. split.
    - assert (Eh : elems (VIter k) (mkst h nx a) = (Ok (h k), mkst (on h k []) nx a)) by reflexivity.
      cbn [map mapM]. unfold bind at 1. rewrite Eh. unfold bind at 1. rewrite E.
      rewrite map_on_out by exact N. reflexivity.
    - cbn [In]. intros q Hq. rewrite Hk, on_other by (intros ->; tauto) || tauto. reflexivity.
  Qed.
  Lemma elems_lists ids (s : st V) : mapM elems (map VList ids) s = (Ok (map (heap s) ids), s).
  Proof. induction ids as [|i ids IH]; [reflexivity|].
    assert (Eh : elems (VList i) s = (Ok (heap s i), s)) by reflexivity.
    cbn [map mapM]. unfold bind at 1. rewrite Eh. unfold bind at 1. rewrite IH. reflexivity. Qed.

  (** What the caller gets: an iterator over the values. *)
  Definition yields (L X I : nat) (l : list V) (c : core V V) (r : res (val V)) (s' : st V) : Prop :=
    exists q, r = Ok (VIter q) /\ heap s' q = map VElt l /\ holds L X I s' c.

  Lemma yields_end L X I (c : core V V) h nx h2 nx2 q l :
    holds L X I (mkst h nx (slots (len c) (load c) L X I (offset c))) c ->
    (forall x, x < nx -> h2 x = h x) -> nx <= nx2 -> h2 q = map VElt l ->
    yields L X I l c (Ok (VIter q)) (mkst h2 nx2 (slots (len c) (load c) L X I (offset c))).
  Proof.
    intros H Hk Hn Hl. exists q. split; [reflexivity|]. split; [exact Hl|].
    destruct (holds_inv _ _ _ _ _ H) as (h0 & nx0 & ids & E & R). injection E as <- <-.
    assert (R2 : rep L X I h2 nx2 ids (lists c) (maxes c) (index c)).
    { apply (rep_ix_any L X I h h2 nx nx2 ids _ _ (index c) _ R); [intros; apply Hk; assumption| |lia].
      pose proof (rep_dist _ _ _ _ _ _ _ _ _ R) as (P1 & P2 & P3 & P4 & P5 & P6 & P7 & P8 & P9 & P10 & P11).
      rewrite Hk by exact P10. apply R. }
    pose proof (rep_holds L X I _ _ _ _ _ _ (len c) (load c) (offset c) R2) as G. clear - G. destruct c. exact G.
  Qed.

  Lemma concat_elts (ls : list (list V)) : concat (map (map VElt) ls) = map (@VElt V) (concat ls).
  Proof. symmetry. apply concat_map. Qed.

  Lemma src_iter n d L X I s (c : core V V) : holds L X I s c ->
    wp (call lt eq klass n (S d) "__iter__" []) s (yields L X I (contents c) c).
  Proof.
    intros H. enter. destruct (holds_rep _ _ _ _ _ H) as (h & nx & ids & -> & R). pose proof R as (HX & HI & HL & Hm & Hd & Hf).
    run. rewrite HL. eapply wp_eq; [apply elems_lists|]. run. cbn [heap]. rewrite Hm, concat_elts.
    apply (yields_end L X I c h nx); try assumption; try lia.
    - intros x Hx. apply on_other. lia.
    - apply on_same.
  Qed.

  Lemma src_reversed n d L X I s (c : core V V) : holds L X I s c ->
    wp (call lt eq klass n (S d) "__reversed__" []) s (yields L X I (concat (map (@rev V) (rev (lists c)))) c).
  Proof.
    intros H. enter. destruct (holds_rep _ _ _ _ _ H) as (h & nx & ids & -> & R). pose proof R as (HX & HI & HL & Hm & Hd & Hf).
    pose proof (rep_dist _ _ _ _ _ _ _ _ _ R) as (P1 & P2 & P3 & P4 & P5 & P6 & P7 & P8 & P9 & P10 & P11). rewrite Forall_forall in P11.
    run. rewrite on_same, HL, <- map_rev. set (h1 := on (on h nx (map VList (rev ids))) nx []).
    assert (Hl1 : forall x, x < nx -> h1 x = h x) by (intros x Hx; unfold h1; rewrite !on_other by lia; reflexivity).
    destruct (map_rev_lists (slots (len c) (load c) L X I (offset c)) (rev ids) h1 (S nx)) as (h2 & E2 & Hk2 & Hr2).
    { intros j Hj. apply in_rev in Hj. specialize (P11 _ Hj). lia. }
    eapply wp_eq; [exact E2|]. run. rewrite on_same. set (k := length (rev ids)) in *.
    match goal with |- wp (mapM elems _) (mkst ?x _ _) _ => set (h3 := x) end.
    assert (Hl3 : forall x, x < S nx + k -> h3 x = h2 x) by (intros x Hx; unfold h3; rewrite !on_other by lia; reflexivity).
    destruct (drain (slots (len c) (load c) L X I (offset c)) (S (S nx + k)) (seq (S nx) k) h3 (seq_NoDup _ _)) as (h4 & E4 & Hk4).
    eapply wp_eq; [exact E4|]. run.
    apply (yields_end L X I c h nx); try assumption; try lia.
    - intros x Hx. rewrite on_other by lia. rewrite Hk4 by (rewrite in_seq; lia). rewrite Hl3, Hk2 by lia. apply Hl1. lia.
    - rewrite on_same, <- concat_elts. f_equal. transitivity (map h2 (seq (S nx) k)).
      { apply map_ext_in. intros x Hx. apply in_seq in Hx. apply Hl3. lia. }
      rewrite Hr2. transitivity (map (@rev (val V)) (map h (rev ids))).
      { rewrite map_map. apply map_ext_in. intros x Hx. apply in_rev in Hx. rewrite Hl1 by (apply P11, Hx). reflexivity. }
      rewrite map_rev, Hm, <- map_rev, !map_map. apply map_ext. intros x. symmetry. apply map_rev.
  Qed.

  Lemma row_at ids h (ls : list (list V)) p l : map h ids = map (map VElt) ls -> getn ls p = Ok l ->
    exists id, getz (map (@VList V) ids) (Z.of_nat p) = Ok (VList id) /\ h id = map VElt l /\ In id ids.
  Proof.
    intros Hm Hp. pose proof (sub_at _ _ _ p Hm) as Hs. rewrite Hp in Hs. destruct Hs as (id & Hid & Hh).
    exists id. rewrite getz_map, getz_nat, Hid. split; [reflexivity|]. split; [exact Hh|]. exact (getn_in _ _ _ Hid).
  Qed.

  Lemma mapR_rows (ids : list nat) h (ls : list (list V)) : forall is subs, map h ids = map (map VElt) ls -> mapR (getn ls) is = Ok subs ->
    exists js, mapR (getn ids) is = Ok js /\ map h js = map (map VElt) subs /\ (forall j : nat, In j js -> In j ids).
  Proof.
    induction is as [|i is IH]; intros subs Hm E. { injection E as <-. exists []. split; [reflexivity|]. split; [reflexivity|]. intros j []. }
    cbn [mapR] in *. destruct (getn ls i) as [x|] eqn:Ex; [|discriminate]. cbn [rbind] in E. destruct (mapR (getn ls) is) as [t|]; [|discriminate].
    injection E as <-. destruct (IH t Hm eq_refl) as (js & Ej & Hj & Hi). pose proof (sub_at _ _ _ i Hm) as Hs. rewrite Ex in Hs.
    destruct Hs as (id & Hid & Hh). exists (id :: js). rewrite Hid, Ej. split; [reflexivity|]. cbn [map]. rewrite Hh, Hj. split; [reflexivity|].
    intros j [<-|Hj']; [exact (getn_in _ _ _ Hid)|apply Hi, Hj'].
  Qed.

  Ltac fin := first [lia | assumption | apply on_same].

  Lemma src_pairs n d L X I s (c : core V V) p i p2 j2 (rv : bool) l : holds L X I s c ->
    islice_pairs (lists c) p i p2 j2 rv = Ok l ->
    wp (call lt eq klass n (S d) "_islice" [vnat p; vnat i; vnat p2; vnat j2; VBool rv]) s (yields L X I l c).
  Proof.
    intros H E. enter. destruct (holds_rep _ _ _ _ _ H) as (h & nx & ids & -> & R). pose proof R as (HX & HI & HL & Hm & Hd & Hf).
    pose proof (rep_dist _ _ _ _ _ _ _ _ _ R) as (P1 & P2 & P3 & P4 & P5 & P6 & P7 & P8 & P9 & P10 & P11). rewrite Forall_forall in P11.
    unfold islice_pairs in E. run. rewrite ltz_nat. destruct (Nat.ltb_spec p2 p) as [Hpp|Hpp].
    { run. injection E as <-. apply (yields_end L X I c h nx); try fin. intros x Hx. apply on_other. lia. }
    run. rewrite eqz_nat. destruct (Nat.eqb_spec p p2) as [Hpe|Hpe].
    { destruct (getn (lists c) p) as [r1|] eqn:Er; [|discriminate]. cbn [rbind] in E. destruct (row_at ids h _ _ _ Hm Er) as (id & Hid & Hh & Hin).
      specialize (P11 _ Hin). destruct rv; run.
      - rewrite on_other, HL, Hid by lia. run. rewrite on_same, rangez_nat, <- !map_rev.
        eapply wp_eq; [eapply (map_get VElt id r1); [cbn [heap]; rewrite !on_other by lia; exact Hh|exact E]|]. run.
        apply (yields_end L X I c h nx); try fin. intros x Hx. rewrite !on_other by lia. reflexivity.
      - rewrite HL, Hid by lia. run. rewrite rangez_nat.
        eapply wp_eq; [eapply (map_get VElt id r1); [exact Hh|exact E]|]. run.
        apply (yields_end L X I c h nx); try fin. intros x Hx. rewrite !on_other by lia. reflexivity. }
    destruct (getn (lists c) p) as [r1|] eqn:Er; [|discriminate]. cbn [rbind] in E. destruct (row_at ids h _ _ _ Hm Er) as (id & Hid & Hh & Hin).
    destruct (getn (lists c) p2) as [r2|] eqn:Er2; [|discriminate]. cbn [rbind] in E. destruct (row_at ids h _ _ _ Hm Er2) as (id2 & Hid2 & Hh2 & Hin2).
    run. replace (Z.of_nat p + 1)%Z with (Z.of_nat (p + 1)) by lia. rewrite eqz_nat. cbv zeta in E. pose proof (P11 _ Hin). pose proof (P11 _ Hin2).
    destruct (p + 1 =? p2).
    { destruct rv; run; rewrite HL, Hid; run; rewrite Hh, map_length; run.
      - destruct (mapR (getn r2) _) as [la|] eqn:Ea; [|discriminate]. cbn [rbind] in E.
        destruct (mapR (getn r1) _) as [lb|] eqn:Eb; [|discriminate]. injection E as <-.
        rewrite HL, Hid2. run. hp. rewrite rangez_0, <- !map_rev. eapply wp_eq; [eapply (map_get VElt id2 r2); [cbn [heap]; hp; exact Hh2|exact Ea]|].
        run. hp. rewrite HL, Hid. run. hp. rewrite rangez_nat, <- !map_rev. eapply wp_eq; [eapply (map_get VElt id r1); [cbn [heap]; hp; exact Hh|exact Eb]|].
        run. hp. rewrite <- map_app. apply (yields_end L X I c h nx); try fin. intros x Hx. hp. reflexivity.
      - destruct (mapR (getn r1) _) as [la|] eqn:Ea; [|discriminate]. cbn [rbind] in E.
        destruct (mapR (getn r2) _) as [lb|] eqn:Eb; [|discriminate]. injection E as <-.
        rewrite HL, Hid. run. hp. rewrite rangez_nat. eapply wp_eq; [eapply (map_get VElt id r1); [cbn [heap]; hp; exact Hh|exact Ea]|].
        run. hp. rewrite HL, Hid2. run. hp. rewrite rangez_0. eapply wp_eq; [eapply (map_get VElt id2 r2); [cbn [heap]; hp; exact Hh2|exact Eb]|].
        run. hp. rewrite <- map_app. apply (yields_end L X I c h nx); try fin. intros x Hx. hp. reflexivity. }
    destruct rv; run; rewrite HL, Hid; run; rewrite Hh, map_length; run.
    - destruct (mapR (getn (lists c)) _) as [subs|] eqn:Es; [|discriminate]. cbn [rbind] in E.
      destruct (mapR (getn r2) _) as [la|] eqn:Ea; [|discriminate]. cbn [rbind] in E.
      destruct (mapR (getn r1) _) as [lb|] eqn:Eb; [|discriminate]. injection E as <-.
      hp. rewrite rangez_nat, <- !map_rev. destruct (mapR_rows ids h _ _ _ Hm Es) as (js & Ej & Hjs & Hji).
      eapply wp_eq; [eapply (map_get VList L ids); [cbn [heap]; hp; exact HL|exact Ej]|].
      run. hp. rewrite HL, Hid2. run. hp. rewrite rangez_0, <- !map_rev. eapply wp_eq; [eapply (map_get VElt id2 r2); [cbn [heap]; hp; exact Hh2|exact Ea]|].
      run. hp. match goal with |- wp (mapM _ _) (mkst ?x _ _) _ => set (h1 := x) end.
      assert (Hl1 : forall x, x < nx -> h1 x = h x) by (intros x Hx; unfold h1; hp; reflexivity).
      assert (Hla : h1 (S (S (S nx))) = map VElt la) by (unfold h1; hp; reflexivity). clearbody h1.
      destruct (map_rev_lists (slots (len c) (load c) L X I (offset c)) js h1 (S (S (S (S nx))))) as (h2 & E2 & Hk2 & Hr2).
      { intros j Hj. apply Hji, P11 in Hj. lia. }
      eapply wp_eq; [exact E2|]. run. hp. set (k := length js) in *.
      match goal with |- wp (mapM elems _) (mkst ?x ?y _) _ => set (h3 := x); set (nx3 := y) end.
      assert (Hl3 : forall x, x < S (S (S (S nx))) + k -> h3 x = h2 x) by (intros x Hx; unfold h3; hp; reflexivity). clearbody h3.
      destruct (drain (slots (len c) (load c) L X I (offset c)) nx3 (seq (S (S (S (S nx)))) k) h3 (seq_NoDup _ _)) as (h4 & E4 & Hk4).
      eapply wp_eq; [exact E4|]. unfold nx3.
      assert (Hl4 : forall x, x < S (S (S (S nx))) -> h4 x = h1 x).
      { intros x Hx. rewrite Hk4 by (rewrite in_seq; lia). rewrite Hl3, Hk2 by lia. reflexivity. }
      assert (Hc4 : concat (map h3 (seq (S (S (S (S nx)))) k)) = map VElt (concat (map (@rev V) subs))).
      { rewrite <- concat_elts. f_equal. transitivity (map h2 (seq (S (S (S (S nx)))) k)).
        { apply map_ext_in. intros x Hx. apply in_seq in Hx. apply Hl3. lia. }
        rewrite Hr2. transitivity (map (@rev (val V)) (map h js)).
        { rewrite map_map. apply map_ext_in. intros x Hx. rewrite Hl1 by (apply P11, Hji, Hx). reflexivity. }
        rewrite Hjs, !map_map. apply map_ext. intros x. symmetry. apply map_rev. }
      run. rewrite Hc4. hp. rewrite Hl4, Hl1, HL, Hid by lia. run. hp. rewrite rangez_nat, <- !map_rev.
      eapply wp_eq; [eapply (map_get VElt id r1); [cbn [heap]; hp; rewrite Hl4, Hl1 by lia; exact Hh|exact Eb]|].
      run. hp. rewrite Hl4, Hla by lia. rewrite <- !map_app.
      apply (yields_end L X I c h nx); try fin. intros x Hx. hp. rewrite Hl4, Hl1 by lia. reflexivity.
    - destruct (mapR (getn (lists c)) _) as [subs|] eqn:Es; [|discriminate]. cbn [rbind] in E.
      destruct (mapR (getn r1) _) as [la|] eqn:Ea; [|discriminate]. cbn [rbind] in E.
      destruct (mapR (getn r2) _) as [lb|] eqn:Eb; [|discriminate]. injection E as <-.
      rewrite rangez_nat. destruct (mapR_rows ids h _ _ _ Hm Es) as (js & Ej & Hjs & Hji).
      eapply wp_eq; [eapply (map_get VList L ids); [cbn [heap]; hp; exact HL|exact Ej]|].
      run. hp. rewrite HL, Hid. run. hp. rewrite rangez_nat. eapply wp_eq; [eapply (map_get VElt id r1); [cbn [heap]; hp; exact Hh|exact Ea]|].
      run. hp. eapply wp_eq; [apply elems_lists|]. cbn [heap].
      match goal with |- context [map ?x js] => assert (Hj2 : map x js = map (map VElt) subs) end.
      { rewrite <- Hjs. apply map_ext_in. intros x Hx. apply Hji, P11 in Hx. hp. reflexivity. }
      rewrite Hj2, concat_elts. run. hp. rewrite HL, Hid2. run. hp. rewrite rangez_0.
      eapply wp_eq; [eapply (map_get VElt id2 r2); [cbn [heap]; hp; exact Hh2|exact Eb]|].
      run. hp. rewrite <- !map_app. apply (yields_end L X I c h nx); try fin. intros x Hx. hp. reflexivity.
  Qed.
End Iter.

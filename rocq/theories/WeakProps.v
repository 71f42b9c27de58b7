(** * Lemmas for WeakSpec *)
From Verif Require Import PyBase BaseFacts Model Spec SpecFacts Shape SliceFacts IndexFacts CoreFacts VtFacts KeyFacts KeyLook ListSim ListFacts History HistFacts Reach ListProps WeakSpec.
Local Unset Implicit Arguments.

Section WeakList.
  Context {V : Type}.
  Variables ltb eqb : V -> V -> bool.
  Hypothesis HO : SWO ltb.
  Hypothesis HE : EqCompat ltb eqb.
  Notation lt := (total2 ltb).
  Notation eq := (total2 eqb).
  Notation SL := (core V V).
  Notation HT := (tie_total ltb HO).
  Notation tb := (tie ltb).

  Lemma eqb_tie x v : eqb x v = true -> tb x v = true.
  Proof. intros H. destruct (HE _ _ H) as [H1 H2]. unfold tie. rewrite H1, H2. reflexivity. Qed.
  Lemma tie_no x v : tb x v = false -> eqb x v = false.
  Proof. intros H. destruct (eqb x v) eqn:E; [|reflexivity]. rewrite (eqb_tie _ _ E) in H. congruence. Qed.

  Lemma found_none v l : (forall x, In x l -> tb x v = false) -> wk_found ltb eqb v l = false.
  Proof.
    intros H. unfold wk_found, wk_first. destruct (find _ l) as [e|] eqn:E; [|reflexivity].
    apply find_some in E as [E1 E2]. rewrite H in E2 by exact E1. discriminate.
  Qed.
  Lemma found_at v a x b : tb x v = true -> (forall y, In y a -> tb y v = false) ->
    wk_found ltb eqb v (a ++ x :: b) = eqb x v.
  Proof.
    intros Hx Ha. unfold wk_found, wk_first. induction a as [|y a IH]; cbn [app find].
    - rewrite Hx. reflexivity.
    - rewrite (Ha y) by (left; reflexivity). apply IH. intros z Hz. apply Ha. right. exact Hz.
  Qed.

  (** The position the search ends at holds the first tied value, if any. *)
  Lemma wfind v (c : SL) : LShape c -> sorted ltb (contents c) ->
    exists pos, bisect_left lt (maxes c) v = Ok pos /\
    ((pos = length (maxes c) /\ wk_found ltb eqb v (contents c) = false) \/
     (pos < length (maxes c) /\ exists l idx x, getn (lists c) pos = Ok l /\
        bisect_left lt l v = Ok idx /\ getn l idx = Ok x /\
        eq x v = Ok (wk_found ltb eqb v (contents c)) /\
        (wk_found ltb eqb v (contents c) = true ->
           tb x v = true /\
           Locate (lists c) pos idx (sp_bisect_left ltb v (contents c)) /\ exists a b, contents c = a ++ x :: b /\
            length a = sp_bisect_left ltb v (contents c) /\ forall y, In y a -> tb y v = false))).
  Proof.
    intros H Hs.
    destruct (lfind ltb tb HT v c H Hs) as (pos & Hp & [[-> Hn]|(Hlt & l & idx & x & G1 & G2 & G3 & HL & Hc)]).
    - exists (length (maxes c)). split; [exact Hp|]. left. split; [reflexivity|]. apply found_none, Hn.
    - exists pos. split; [exact Hp|]. right. split; [exact Hlt|]. exists l, idx, x.
      split; [exact G1|]. split; [exact G2|]. split; [exact G3|].
      destruct Hc as [[Ex Hn]|(Ex & a & b & E & Ha & Hn)].
      + rewrite found_none by exact Hn. unfold total2. rewrite tie_no by exact Ex. split; [reflexivity|discriminate].
      + assert (Hw : wk_found ltb eqb v (contents c) = eqb x v) by (rewrite E; apply found_at; auto).
        rewrite Hw. split; [reflexivity|]. intros _. split; [exact Ex|]. split; [exact HL|].
        exists a, b. auto.
  Qed.

  Lemma w_contains v (c : SL) : LShape c -> sorted ltb (contents c) ->
    sl_contains lt eq v c = (Ok (wk_found ltb eqb v (contents c)), c).
  Proof.
    intros H Hs. unfold sl_contains. rewrite bind_get.
    destruct (is_nil (maxes c)) eqn:En.
    { rewrite (lmaxes_nil_contents c H En). reflexivity. }
    destruct (wfind v c H Hs) as (pos & Hp & [[-> Hn]|(Hlt & l & idx & x & G1 & G2 & G3 & G4 & _)]).
    - rewrite (bind_lift _ _ _ _ Hp), Nat.eqb_refl, Hn. reflexivity.
    - rewrite (bind_lift _ _ _ _ Hp). destruct (Nat.eqb_spec pos (length (maxes c))); [lia|].
      rewrite (bind_lift _ _ _ _ G1), (bind_lift _ _ _ _ G2), (bind_lift _ _ _ _ G3).
      unfold liftr. rewrite G4. reflexivity.
  Qed.

  Lemma w_discard v (c : SL) : LShape c -> sorted ltb (contents c) ->
    exists c', sl_discard lt eq v c = (Ok tt, c') /\ LShape c' /\
      contents c' = (if wk_found ltb eqb v (contents c) then sp_discard tb v (contents c) else contents c) /\
      load c' = load c.
  Proof.
    intros H Hs. unfold sl_discard. rewrite bind_get.
    destruct (is_nil (maxes c)) eqn:En.
    { exists c. rewrite (lmaxes_nil_contents c H En). split; [reflexivity|]. split; [exact H|]. split; reflexivity. }
    destruct (wfind v c H Hs) as (pos & Hp & [[-> Hn]|(Hlt & l & idx & x & G1 & G2 & G3 & G4 & Hc)]).
    - rewrite (bind_lift _ _ _ _ Hp), Nat.eqb_refl, Hn. exists c. auto.
    - rewrite (bind_lift _ _ _ _ Hp). destruct (Nat.eqb_spec pos (length (maxes c))); [lia|].
      rewrite (bind_lift _ _ _ _ G1), (bind_lift _ _ _ _ G2), (bind_lift _ _ _ _ G3), (bind_lift _ _ _ _ G4).
      destruct (wk_found ltb eqb v (contents c)); [|exists c; auto].
      destruct (Hc Logic.eq_refl) as (Ex & HL & a & b & E & Ha & Hn). rewrite <- Ha in HL.
      destruct (vo_delete _ _ (sl_vt_ok lt) c a x b pos idx H E HL) as (s' & H1 & H2 & H3 & H4).
      exists s'. split; [exact H1|]. split; [exact H2|]. split; [|exact H4].
      rewrite E, sp_discard_at by assumption. exact H3.
  Qed.

  Lemma w_remove v (c : SL) : LShape c -> sorted ltb (contents c) ->
    exists c', sl_remove lt eq v c =
        ((if wk_found ltb eqb v (contents c) then Ok tt else Err ValueError), c') /\ LShape c' /\
      contents c' = (if wk_found ltb eqb v (contents c) then sp_discard tb v (contents c) else contents c) /\
      load c' = load c.
  Proof.
    intros H Hs. unfold sl_remove. rewrite bind_get.
    destruct (is_nil (maxes c)) eqn:En.
    { exists c. rewrite (lmaxes_nil_contents c H En). split; [reflexivity|]. split; [exact H|]. split; reflexivity. }
    destruct (wfind v c H Hs) as (pos & Hp & [[-> Hn]|(Hlt & l & idx & x & G1 & G2 & G3 & G4 & Hc)]).
    - rewrite (bind_lift _ _ _ _ Hp), Nat.eqb_refl, Hn. exists c. auto.
    - rewrite (bind_lift _ _ _ _ Hp). destruct (Nat.eqb_spec pos (length (maxes c))); [lia|].
      rewrite (bind_lift _ _ _ _ G1), (bind_lift _ _ _ _ G2), (bind_lift _ _ _ _ G3), (bind_lift _ _ _ _ G4).
      destruct (wk_found ltb eqb v (contents c)); [|exists c; auto].
      destruct (Hc Logic.eq_refl) as (Ex & HL & a & b & E & Ha & Hn). rewrite <- Ha in HL.
      destruct (vo_delete _ _ (sl_vt_ok lt) c a x b pos idx H E HL) as (s' & H1 & H2 & H3 & H4).
      exists s'. split; [exact H1|]. split; [exact H2|]. split; [|exact H4].
      rewrite E, sp_discard_at by assumption. exact H3.
  Qed.

  (** [index] with the finer equality either fails at its equality test or goes on
      exactly as it would if ties were equal. *)
  Lemma w_index v start stop (c : SL) : LShape c -> sorted ltb (contents c) ->
    exists c', sl_index lt eq v start stop c =
      ((if wk_found ltb eqb v (contents c) then sp_index tb v start stop (contents c) else Err ValueError), c') /\ touch c c'.
  Proof.
    intros H Hs.
    destruct (wfind v c H Hs) as (pos & Hp & Hc).
    destruct (wk_found ltb eqb v (contents c)) eqn:Ew.
    - destruct Hc as [[_ ?]|(Hlt & l & idx & x & G1 & G2 & G3 & G4 & Hc)]; [discriminate|].
      destruct (Hc Logic.eq_refl) as (Ex & _).
      destruct (sl_index_ok ltb tb HT v start stop c H Hs) as (c' & E & T). exists c'. split; [|exact T].
      rewrite <- E. unfold sl_index. rewrite !bind_get. destruct (len c =? 0); [reflexivity|]. cbv zeta.
      destruct (_ <=? _)%Z; [reflexivity|].
      rewrite !(bind_lift _ _ _ _ Hp). destruct (pos =? length (maxes c)); [reflexivity|].
      rewrite !(bind_lift _ _ _ _ G1), !(bind_lift _ _ _ _ G2), !(bind_lift _ _ _ _ G3), (bind_lift _ _ _ _ G4).
      assert (Gt : total2 tb x v = Ok true) by (unfold total2; rewrite Ex; reflexivity).
      rewrite (bind_lift _ _ _ _ Gt). reflexivity.
    - exists c. split; [|apply touch_refl, lshape_core, H].
      unfold sl_index. rewrite !bind_get. destruct (len c =? 0); [reflexivity|]. cbv zeta.
      destruct (_ <=? _)%Z; [reflexivity|].
      rewrite !(bind_lift _ _ _ _ Hp). destruct (Nat.eqb_spec pos (length (maxes c))) as [|Hne]; [reflexivity|].
      destruct Hc as [[? _]|(Hlt & l & idx & x & G1 & G2 & G3 & G4 & Hc)]; [contradiction|].
      rewrite !(bind_lift _ _ _ _ G1), !(bind_lift _ _ _ _ G2), !(bind_lift _ _ _ _ G3), (bind_lift _ _ _ _ G4).
      reflexivity.
  Qed.

  Variable dflt : nat.
  Hypothesis Hd : 1 <= dflt.

  Lemma sorted_sp_discard v l : sorted ltb l -> sorted ltb (sp_discard tb v l).
  Proof. exact (sp_step_sorted ltb tb ltb HO (LDiscard v) l). Qed.

  Lemma w_step o (c : SL) : LInv ltb c -> wk_ok o ->
    exists c', sl_step lt eq dflt o c = (fst (wk_step ltb eqb o (contents c)), c') /\ LInv ltb c' /\
      contents c' = snd (wk_step ltb eqb o (contents c)).
  Proof.
    intros HI [Ho Hw]. pose proof HI as [H Hs].
    assert (base : sl_step lt eq dflt o c = sl_step lt (total2 tb) dflt o c ->
                   wk_step ltb eqb o (contents c) = sp_step ltb tb ltb o (contents c) ->
                   exists c', sl_step lt eq dflt o c = (fst (wk_step ltb eqb o (contents c)), c') /\ LInv ltb c' /\
                     contents c' = snd (wk_step ltb eqb o (contents c))).
    { intros -> ->. destruct (sl_step_inv ltb tb HT dflt Hd o c HI Ho) as (c' & E1 & E2 & E3 & _).
      exists c'. auto. }
    destruct o; try (exact (base Logic.eq_refl Logic.eq_refl)); clear base; cbn [sl_step wk_step fst snd].
    - destruct (w_discard v c H Hs) as (c' & E & H1 & H2 & _). exists c'.
      split; [exact (obs_ok _ _ _ _ _ E)|]. split; [|exact H2]. split; [exact H1|]. rewrite H2.
      destruct (wk_found _ _ _ _); [apply sorted_sp_discard, Hs|exact Hs].
    - destruct (w_remove v c H Hs) as (c' & E & H1 & H2 & _). exists c'.
      rewrite (obs_res _ _ _ _ _ E). destruct (wk_found _ _ _ _); cbn [of_res fst snd].
      + split; [reflexivity|]. split; [|exact H2]. split; [exact H1|]. rewrite H2. apply sorted_sp_discard, Hs.
      + split; [reflexivity|]. split; [|exact H2]. split; [exact H1|]. rewrite H2. exact Hs.
    - exists c. rewrite (obs_ok _ _ _ _ _ (w_contains v c H Hs)). auto.
    - destruct (w_index v start stop c H Hs) as (c' & E & T). exists c'. rewrite (obs_res _ _ _ _ _ E).
      assert (HI' : LInv ltb c') by (split; [exact (lshape_touch _ _ H T)|rewrite (touch_contents _ _ T); exact Hs]).
      rewrite (touch_contents _ _ T).
      destruct (wk_found _ _ _ _); [destruct (sp_index _ _ _ _ _)|]; cbn; auto.
    - exists c. rewrite (obs_ok _ _ _ _ _ (compare_ok ltb eqb op other c (co_len _ (lshape_core c H))
        ltac:(destruct Hw; subst op; discriminate))). auto.
  Qed.

  Lemma w_run ops : forall c : SL, LInv ltb c -> Forall wk_ok ops ->
    exists c', sl_run lt eq dflt ops c = (fst (wk_run ltb eqb ops (contents c)), c') /\ LInv ltb c' /\
      contents c' = snd (wk_run ltb eqb ops (contents c)).
  Proof.
    induction ops as [|o ops IH]; intros c HI Hos.
    - exists c. auto.
    - inversion Hos as [|? ? Ho Hos']; subst.
      destruct (w_step o c HI Ho) as (c1 & E1 & HI1 & Ec).
      destruct (IH c1 HI1 Hos') as (c2 & E2 & HI2 & Ec2).
      exists c2. unfold sl_run, wk_run in *. cbn [run]. rewrite E1.
      destruct (wk_step ltb eqb o (contents c)) as [r l1]. cbn [fst snd] in *. subst l1.
      rewrite E2. destruct (run (wk_step ltb eqb) ops (contents c1)) as [rs l2]. cbn [fst snd] in *. auto.
  Qed.
End WeakList.

(** ** C81 *)
Lemma c81_history : forall V (ltb eqb : V -> V -> bool) dflt ops,
  SWO ltb -> EqCompat ltb eqb -> 1 <= dflt -> Forall wk_ok ops ->
  exists outs c l, sl_run (total2 ltb) (total2 eqb) dflt ops (sl_init dflt) = (outs, c) /\
    wk_run ltb eqb ops [] = (outs, l) /\ shows c l.
Proof.
  intros V ltb eqb dflt ops HO HE Hd Hok.
  destruct (w_run ltb eqb HO HE dflt Hd ops (sl_init dflt) (sl_init_inv ltb dflt Hd) Hok) as (c & E & HI & Ec).
  change (contents (sl_init dflt)) with (@nil V) in *.
  exists (fst (wk_run ltb eqb ops [])), c, (snd (wk_run ltb eqb ops [])).
  split; [exact E|]. split; [apply surjective_pairing|]. unfold shows. rewrite <- Ec. reflexivity.
Qed.

(** States reached by histories of covered operations. *)
Lemma wk_reach_inv {V} (ltb eqb : V -> V -> bool) dflt ops outs c l :
  SWO ltb -> EqCompat ltb eqb -> 1 <= dflt -> Forall wk_ok ops ->
  sl_run (total2 ltb) (total2 eqb) dflt ops (sl_init dflt) = (outs, c) -> shows c l ->
  LInv ltb c /\ contents c = l.
Proof.
  intros HO HE Hd Hok Er Hl.
  destruct (w_run ltb eqb HO HE dflt Hd ops (sl_init dflt) (sl_init_inv ltb dflt Hd) Hok) as (c1 & E & HI & Ec).
  rewrite E in Er. injection Er as _ <-. split; [exact HI|].
  unfold shows, iter in Hl. cbn in Hl. injection Hl as <-. reflexivity.
Qed.

Lemma discard_split {V} (eqb : V -> V -> bool) v l : sp_contains eqb v l = true ->
  exists a x b, l = a ++ x :: b /\ eqb x v = true /\ (forall y, In y a -> eqb y v = false) /\ sp_discard eqb v l = a ++ b.
Proof.
  induction l as [|e l IH]; cbn [sp_contains existsb sp_discard]; [discriminate|].
  destruct (eqb e v) eqn:E; cbn [orb].
  - intros _. exists [], e, l. split; [reflexivity|]. split; [exact E|]. split; [contradiction|reflexivity].
  - intros H. destruct (IH H) as (a & x & b & -> & Hx & Ha & Hd). exists (e :: a), x, b.
    split; [reflexivity|]. split; [exact Hx|]. split; [|cbn; rewrite Hd; reflexivity].
    intros y [<-|Hy]; auto.
Qed.

Lemma found_split {V} (ltb eqb : V -> V -> bool) v l : wk_found ltb eqb v l = true ->
  exists a x b, l = a ++ x :: b /\ eqb x v = true /\ sp_discard (tie ltb) v l = a ++ b.
Proof.
  intros H. assert (Hc : sp_contains (tie ltb) v l = true).
  { unfold wk_found, wk_first in H. destruct (find _ l) as [e|] eqn:E; [|discriminate].
    apply find_some in E as [E1 E2]. apply existsb_exists. exists e. auto. }
  destruct (discard_split _ v l Hc) as (a & x & b & E & Hx & Ha & Hd). exists a, x, b.
  split; [exact E|]. split; [|exact Hd]. rewrite E in H.
  rewrite (found_at ltb eqb v a x b Hx Ha) in H. exact H.
Qed.

Lemma c81_sound : forall V (ltb eqb : V -> V -> bool) dflt ops outs c l v,
  SWO ltb -> EqCompat ltb eqb -> 1 <= dflt -> Forall wk_ok ops ->
  sl_run (total2 ltb) (total2 eqb) dflt ops (sl_init dflt) = (outs, c) -> shows c l ->
  (forall c', sl_do ltb eqb dflt (LContains v) c = (RBool true, c') -> exists x, In x l /\ eqb x v = true) /\
  (exists c' l', sl_do ltb eqb dflt (LDiscard v) c = (RUnit, c') /\ shows c' l' /\
     (l' = l \/ exists a x b, l = a ++ x :: b /\ eqb x v = true /\ l' = a ++ b)) /\
  (exists r c' l', sl_do ltb eqb dflt (LRemove v) c = (r, c') /\ shows c' l' /\
     ((r = RExn ValueError /\ l' = l) \/ (r = RUnit /\ exists a x b, l = a ++ x :: b /\ eqb x v = true /\ l' = a ++ b))).
Proof.
  intros V ltb eqb dflt ops outs c l v HO HE Hd Hok Er Hl.
  destruct (wk_reach_inv ltb eqb dflt ops outs c l HO HE Hd Hok Er Hl) as [HI <-].
  assert (Hw : forall o : lop V, wk_ok o -> exists c', sl_do ltb eqb dflt o c = (fst (wk_step ltb eqb o (contents c)), c') /\
             shows c' (snd (wk_step ltb eqb o (contents c)))).
  { intros o Ho. destruct (w_step ltb eqb HO HE dflt Hd o c HI Ho) as (c' & E & _ & Ec).
    exists c'. split; [exact E|]. unfold shows. rewrite <- Ec. reflexivity. }
  split; [|split].
  - intros c' E. destruct (Hw (LContains v)) as (c1 & E1 & _); [split; exact I|].
    rewrite E in E1. cbn [wk_step fst] in E1. injection E1 as E1 _. symmetry in E1.
    destruct (found_split _ _ _ _ E1) as (a & x & b & -> & Hx & _). exists x. split; [|exact Hx].
    apply in_or_app. right. left. reflexivity.
  - destruct (Hw (LDiscard v)) as (c1 & E1 & H1); [split; exact I|]. cbn [wk_step fst snd] in *.
    exists c1. eexists. split; [exact E1|]. split; [exact H1|].
    destruct (wk_found ltb eqb v (contents c)) eqn:Ew; [|left; reflexivity].
    right. exact (found_split _ _ _ _ Ew).
  - destruct (Hw (LRemove v)) as (c1 & E1 & H1); [split; exact I|]. cbn [wk_step fst snd] in *.
    destruct (wk_found ltb eqb v (contents c)) eqn:Ew; cbn [fst snd] in *.
    + eexists _, c1, _. split; [exact E1|]. split; [exact H1|]. right. split; [reflexivity|].
      exact (found_split _ _ _ _ Ew).
    + eexists _, c1, _. split; [exact E1|]. split; [exact H1|]. left. auto.
Qed.

(** Where ties with [v] are all equal to [v], nothing is lost. *)
Section Exact.
  Context {V : Type}.
  Variables ltb eqb : V -> V -> bool.
  Hypothesis HE : EqCompat ltb eqb.
  Variable v : V.

  Lemma ex_same l : (forall x, In x l -> tie ltb x v = true -> eqb x v = true) ->
    forall x, In x l -> tie ltb x v = eqb x v.
  Proof.
    intros H x Hx. destruct (eqb x v) eqn:E; [exact (eqb_tie ltb eqb HE _ _ E)|].
    destruct (tie ltb x v) eqn:T; [|reflexivity]. rewrite (H x Hx T) in E. discriminate.
  Qed.
  Lemma ex_found l : (forall x, In x l -> tie ltb x v = eqb x v) -> wk_found ltb eqb v l = sp_contains eqb v l.
  Proof.
    unfold wk_found, wk_first, sp_contains. induction l as [|e l IH]; intros H; [reflexivity|]. cbn [find existsb].
    rewrite (H e) by (left; reflexivity). destruct (eqb e v) eqn:E; cbn [orb]; [exact E|].
    apply IH. intros x Hx. apply H. right. exact Hx.
  Qed.
  Lemma ex_discard l : (forall x, In x l -> tie ltb x v = eqb x v) -> sp_discard (tie ltb) v l = sp_discard eqb v l.
  Proof.
    induction l as [|e l IH]; intros H; [reflexivity|]. cbn [sp_discard].
    rewrite (H e) by (left; reflexivity). destruct (eqb e v); [reflexivity|]. f_equal.
    apply IH. intros x Hx. apply H. right. exact Hx.
  Qed.
  Lemma ex_discard_none l : sp_contains eqb v l = false -> sp_discard eqb v l = l.
  Proof.
    unfold sp_contains. induction l as [|e l IH]; [reflexivity|]. cbn [existsb sp_discard].
    destruct (eqb e v); [discriminate|]. intros H. f_equal. apply IH, H.
  Qed.
  Lemma ex_count l : (forall x, In x l -> tie ltb x v = eqb x v) -> sp_count (tie ltb) v l = sp_count eqb v l.
  Proof.
    intros H. unfold sp_count. f_equal. apply filter_ext_in. exact H.
  Qed.
  Lemma ex_index start stop l : (forall x, In x l -> tie ltb x v = eqb x v) ->
    sp_index (tie ltb) v start stop l = sp_index eqb v start stop l.
  Proof.
    intros H. unfold sp_index. cbv zeta.
    match goal with |- match find ?f ?s with _ => _ end = match find ?g _ with _ => _ end =>
      assert (E : find f s = find g s); [|rewrite E; reflexivity] end.
    induction (seq 0 (length l)) as [|i s IH]; [reflexivity|]. cbn [find]. rewrite IH.
    destruct (nth_error l i) as [x|] eqn:Ex; [|reflexivity].
    rewrite (H x) by (eapply nth_error_In; exact Ex). reflexivity.
  Qed.
  Lemma ex_index_none start stop l : sp_contains eqb v l = false -> sp_index eqb v start stop l = Err ValueError.
  Proof.
    intros H. unfold sp_index. cbv zeta.
    match goal with |- match find ?f ?s with _ => _ end = _ => destruct (find f s) as [i|] eqn:E; [|reflexivity] end.
    apply find_some in E as [_ E]. apply andb_true_iff in E as [_ E].
    destruct (nth_error l i) as [x|] eqn:Ex; [|discriminate].
    assert (Hc : sp_contains eqb v l = true) by (apply existsb_exists; exists x; split; [eapply nth_error_In; exact Ex|exact E]).
    congruence.
  Qed.
End Exact.

Lemma c81_exact : forall V (ltb eqb : V -> V -> bool) dflt ops outs c l v o,
  SWO ltb -> EqCompat ltb eqb -> 1 <= dflt -> Forall wk_ok ops ->
  sl_run (total2 ltb) (total2 eqb) dflt ops (sl_init dflt) = (outs, c) -> shows c l ->
  (forall x, In x l -> tie ltb x v = true -> eqb x v = true) ->
  (o = LContains v \/ o = LDiscard v \/ o = LRemove v \/ o = LCount v \/ exists start stop, o = LIndex v start stop) ->
  exists c', sl_do ltb eqb dflt o c = (fst (sp_step ltb eqb ltb o l), c') /\
    shows c' (snd (sp_step ltb eqb ltb o l)).
Proof.
  intros V ltb eqb dflt ops outs c l v o HO HE Hd Hok Er Hl Hex Hov.
  destruct (wk_reach_inv ltb eqb dflt ops outs c l HO HE Hd Hok Er Hl) as [HI <-].
  pose proof (ex_same ltb eqb HE v _ Hex) as Hsm.
  assert (Ho : wk_ok o) by (destruct Hov as [->|[->|[->|[->|(a & b & ->)]]]]; split; exact I).
  destruct (w_step ltb eqb HO HE dflt Hd o c HI Ho) as (c' & E & _ & Ec).
  assert (Ew : wk_step ltb eqb o (contents c) = sp_step ltb eqb ltb o (contents c)).
  { destruct Hov as [->|[->|[->|[->|(a & b & ->)]]]]; cbn [wk_step sp_step];
      rewrite ?(ex_found ltb eqb v _ Hsm), ?(ex_discard ltb eqb v _ Hsm), ?(ex_count ltb eqb v _ Hsm).
    - reflexivity.
    - destruct (sp_contains eqb v (contents c)) eqn:Q; [reflexivity|]. rewrite ex_discard_none by exact Q. reflexivity.
    - unfold sp_remove. destruct (sp_contains eqb v (contents c)); reflexivity.
    - reflexivity.
    - rewrite (ex_index ltb eqb v a b _ Hsm). destruct (sp_contains eqb v (contents c)) eqn:Q; [reflexivity|].
      rewrite (ex_index_none eqb v a b _ Q). reflexivity. }
  exists c'. rewrite <- Ew. split; [exact E|]. unfold shows. rewrite <- Ec. reflexivity.
Qed.

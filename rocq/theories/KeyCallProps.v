(** * The calls of user code made by a SortedKeyList: statements *)
From Verif Require Import PyBase Model Spec History Reach BaseFacts SpecFacts SliceFacts IndexFacts Shape CoreFacts VtFacts
  KeyFacts KeyLook KeyProps ModelEffect KeyCallSpec EffectSameSpec EffectSame KeyCallFacts.
Local Unset Implicit Arguments.

Section C128.
  Context {V K : Type}.
  Notation W := (list (ucall V K)).
  Lemma spends_observe (Q : ucall V K -> Prop) {A} (inj : A -> out V) (m : M (W * skl V K) A) s nk nl ns ne P : Spends Q m s nk nl ns ne P ->
    let tr := fst (snd (observe inj m ([], s))) in within tr nk nl ns ne /\ Forall Q tr.
  Proof.
    intros H. destruct (H []) as (tr & r & s' & E & HW & HQ & _). unfold observe. rewrite E. cbn [app]. destruct r; cbn [fst snd]; auto.
  Qed.
  Lemma within_none (tr : W) : within tr 0 0 0 0 -> tr = [].
  Proof.
    destruct tr as [|c tr]; [reflexivity|]. unfold within, count. intros (H1 & H2 & H3 & H4 & H5). destruct c; cbn in *; lia.
  Qed.
  Lemma spends_observe0 {A} (inj : A -> out V) (m : M (W * skl V K) A) s P : Spends (fun _ => True) m s 0 0 0 0 P ->
    fst (snd (observe inj m ([], s))) = [].
  Proof. intros H. apply within_none. apply (spends_observe _ inj m s 0 0 0 0 P H). Qed.
End C128.

Lemma c128_lookup : forall V K (srt : sorting (list (ucall V K))) (key : V -> K) (kltb keqb : K -> K -> bool) (vltb eqb : V -> V -> bool) dflt s l o v,
  TotalOrder kltb keqb -> 1 <= dflt -> skl_reach key kltb keqb vltb eqb dflt s -> kshows s l -> looks o = Some v ->
  let t := count (fun x => keqb (key x) (key v)) l in
  within (trace srt key kltb keqb vltb eqb dflt o s) 1 (Nat.log2 (length l) + 6) (t + 1) t /\
  Forall (about key keqb l v) (trace srt key kltb keqb vltb eqb dflt o s).
Proof.
  intros V K srt key kltb keqb vltb eqb dflt s l o v HT Hd HR HS Ho.
  pose proof (proj1 (kreach_inv_any key kltb keqb vltb eqb dflt HT Hd s HR)) as HSh. injection HS as HS. cbv zeta. subst l. fold (contents (kc s)).
  pose proof (find_spend key kltb keqb eqb s HSh v) as F.
  unfold trace, noted_step. destruct o as [[]| | |]; try discriminate Ho; injection Ho as ->; cbn [ek_step ek_lstep].
  - apply (spends_observe _ runit _ s _ _ _ _ (fun _ _ => True)). unfold ek_discard.
    eapply (spends_chain _ _ _ _ _ _ _ _ _ _ 0 0 0 0); [exact F| |rewrite Nat.add_0_r; apply Nat.le_refl..].
    intros [p|] s' _; (eapply spends_le; [first [apply spends_own|apply spends_ret]|lia|lia|lia|lia|auto]).
  - apply (spends_observe _ runit _ s _ _ _ _ (fun _ _ => True)). unfold ek_remove.
    eapply (spends_chain _ _ _ _ _ _ _ _ _ _ 0 0 0 0); [exact F| |rewrite Nat.add_0_r; apply Nat.le_refl..].
    intros [p|] s' _; [eapply spends_le; [apply spends_own|lia|lia|lia|lia|auto]|apply spends_raise].
  - apply (spends_observe _ _ _ s _ _ _ _ (fun _ _ => True)). unfold ek_contains.
    eapply (spends_chain _ _ _ _ _ _ _ _ _ _ 0 0 0 0); [exact F| |rewrite Nat.add_0_r; apply Nat.le_refl..].
    intros r s' _. eapply spends_le; [apply spends_ret|lia|lia|lia|lia|auto].
  - apply (spends_observe _ _ _ s _ _ _ _ (fun _ _ => True)). apply ekcount_spend. exact HSh.
  - apply (spends_observe _ _ _ s _ _ _ _ (fun _ _ => True)). apply ekindex_spend. exact HSh.
Qed.

Lemma c128_place : forall V K (srt : sorting (list (ucall V K))) (key : V -> K) (kltb keqb : K -> K -> bool) (vltb eqb : V -> V -> bool) dflt s l o vs ks,
  TotalOrder kltb keqb -> 1 <= dflt -> skl_reach key kltb keqb vltb eqb dflt s -> kshows s l -> places o = Some (vs, ks) ->
  within (trace srt key kltb keqb vltb eqb dflt o s) (length vs) ((length vs + length ks) * (Nat.log2 (length l) + 6)) 0 0 /\
  Forall (between_keys key l vs ks) (trace srt key kltb keqb vltb eqb dflt o s).
Proof.
  intros V K srt key kltb keqb vltb eqb dflt s l o vs ks HT Hd HR HS Ho.
  pose proof (proj1 (kreach_inv_any key kltb keqb vltb eqb dflt HT Hd s HR)) as HSh. injection HS as HS. subst l. fold (contents (kc s)).
  unfold trace, noted_step. destruct o as [[]| | |]; try discriminate Ho; injection Ho as <- <-; cbn [ek_step ek_lstep].
  - apply (spends_observe _ _ _ s _ _ _ _ (fun _ _ => True)).
    eapply spends_le; [apply add_spend; [exact HSh|left; reflexivity]|cbn [length]; lia|cbn [length]; lia|lia|lia|auto].
  - apply (spends_observe _ _ _ s _ _ _ _ (fun _ _ => True)). unfold ek_rank.
    eapply (spends_chain _ _ _ _ _ _ 1 0 0 0 0 (Nat.log2 (length (contents (kc s))) + 6) 0 0); [apply spends_user, spends0_key; left; reflexivity| |cbn [length]; lia..].
    intros k s1 [-> ->]. apply (rank_spend srt key kltb s HSh [v] [] false). left. reflexivity.
  - apply (spends_observe _ _ _ s _ _ _ _ (fun _ _ => True)). unfold ek_rank.
    eapply (spends_chain _ _ _ _ _ _ 1 0 0 0 0 (Nat.log2 (length (contents (kc s))) + 6) 0 0); [apply spends_user, spends0_key; left; reflexivity| |cbn [length]; lia..].
    intros k s1 [-> ->]. apply (rank_spend srt key kltb s HSh [v] [] true). left. reflexivity.
  - apply (spends_observe _ _ _ s _ _ _ _ (fun _ _ => True)). unfold ek_irange.
    set (vs := match mn with Some v => [v] | None => [] end ++ match mx with Some v => [v] | None => [] end).
    set (B := Nat.log2 (length (contents (kc s))) + 6).
    eapply (spends_chain _ _ _ _ _ _ (match mn with Some _ => 1 | None => 0 end) 0 0 0 (match mx with Some _ => 1 | None => 0 end) ((length vs + length (@nil K)) * B) 0 0);
      [apply keyopt_spend; intros v ->; left; reflexivity| |unfold vs; rewrite app_length; destruct mn, mx; cbn [length]; lia|lia|lia|lia].
    intros mn' s1 [-> ->].
    eapply (spends_chain _ _ _ _ _ _ (match mx with Some _ => 1 | None => 0 end) 0 0 0 0 ((length vs + length (@nil K)) * B) 0 0);
      [apply keyopt_spend; intros v ->; unfold vs; apply in_or_app; right; left; reflexivity| |lia|lia|lia|lia].
    intros mx' s1 [-> ->].
    eapply spends_le; [apply irange_spend; [exact HSh|]| |unfold vs; fold B; rewrite app_length; destruct mn, mx; cbn [option_map length]; lia|lia|lia|auto].
    + intros k H. cbn [app]. unfold vs. rewrite map_app. apply in_or_app. destruct mn as [v|], mx as [v'|]; cbn [option_map map] in *;
        destruct H as [H|H]; try discriminate; injection H as <-; [left|right|left|right]; left; reflexivity.
    + lia.
  - apply (spends_observe _ _ _ s _ _ _ _ (fun _ _ => True)).
    eapply spends_le; [apply (rank_spend srt key kltb s HSh [] [k] false); left; reflexivity|cbn [length]; lia|cbn [length]; lia|lia|lia|auto].
  - apply (spends_observe _ _ _ s _ _ _ _ (fun _ _ => True)).
    eapply spends_le; [apply (rank_spend srt key kltb s HSh [] [k] true); left; reflexivity|cbn [length]; lia|cbn [length]; lia|lia|lia|auto].
  - apply (spends_observe _ _ _ s _ _ _ _ (fun _ _ => True)).
    set (ks := match mn with Some v => [v] | None => [] end ++ match mx with Some v => [v] | None => [] end).
    eapply spends_le; [apply irange_spend; [exact HSh|]|cbn [length]; lia|unfold ks; rewrite app_length; destruct mn, mx; cbn [length]; lia|lia|lia|auto].
    intros k H. cbn [map]. rewrite app_nil_r. unfold ks. apply in_or_app. destruct mn as [v|], mx as [v'|];
      destruct H as [H|H]; try discriminate; injection H as <-; [left|right|left|right]; left; reflexivity.
Qed.

Section Silent.
  Context {V K : Type}.
  Notation W := (list (ucall V K)).
  Variable srt : sorting W.
  Variable key : V -> K.
  Variables kltb : K -> K -> bool.
  Definition Silent {A} (m : M (W * skl V K) A) : Prop := forall s, Spends (fun _ => True) m s 0 0 0 0 (fun _ _ => True).
  Lemma silent_bind {A B} (m : M (W * skl V K) A) (k : A -> M (W * skl V K) B) : Silent m -> (forall a, Silent (k a)) -> Silent (bind m k).
  Proof. intros H HK s. eapply spends_free; [apply H|]. intros a s' _. apply HK. Qed.
  Lemma silent_own {A} (m : M (skl V K) A) : Silent (own m).
  Proof. intros s. eapply spends_le; [apply spends_own|lia|lia|lia|lia|auto]. Qed.
  Lemma silent_oncore {A} (m : M (core V K) A) : Silent (oncore (ek_vt srt (fun j k => noted (ULess j k) (kltb j k)) (fun x => noted (UKey x) (key x))) m).
  Proof. intros s. eapply spends_le; [apply (spends_inner srt key kltb)|lia|lia|lia|lia|auto]. Qed.
  Lemma silent_ret {A} (a : A) : Silent (ret a).
  Proof. intros s. eapply spends_le; [apply spends_ret|lia|lia|lia|lia|auto]. Qed.
  Lemma silent_raise {A} e : Silent (@raise _ A e).
  Proof. intros s. apply spends_raise. Qed.
  Lemma silent_lift {A} (r : res A) : Silent (liftr r).
  Proof. destruct r; [apply silent_ret|apply silent_raise]. Qed.
End Silent.

Lemma c128_silent : forall V K (srt : sorting (list (ucall V K))) (key : V -> K) (kltb keqb : K -> K -> bool) (vltb eqb : V -> V -> bool) dflt s o,
  silent o -> trace srt key kltb keqb vltb eqb dflt o s = [].
Proof.
  intros V K srt key kltb keqb vltb eqb dflt s o Ho. unfold trace, noted_step.
  destruct o as [[]| | |]; try contradiction Ho; cbn [ek_step ek_lstep]; apply (spends_observe0 _ _ _ (fun _ _ => True)); revert s;
    match goal with |- forall s, Spends _ ?m s _ _ _ _ _ => change (Silent m) end; unfold inner, delitem_int, pop, unsupported;
    repeat first [apply silent_own|apply silent_oncore|apply silent_ret|apply silent_raise|apply silent_lift
                 |apply silent_bind; [|intros ?]|progress cbv zeta|match goal with |- Silent (if ?b then _ else _) => destruct b end].
Qed.

Lemma c128_answers : forall V K (srt : sorting (list (ucall V K))) (key : V -> K) (kltb keqb : K -> K -> bool) (vltb eqb : V -> V -> bool) dflt s o tr,
  sorts_told srt -> TotalOrder kltb keqb -> 1 <= dflt -> skl_reach key kltb keqb vltb eqb dflt s -> kop_ok o ->
  exists tr', noted_step srt key kltb keqb vltb eqb dflt o (tr, s) =
    (fst (skl_do key kltb keqb vltb eqb dflt o s), (tr', snd (skl_do key kltb keqb vltb eqb dflt o s))).
Proof.
  intros V K srt key kltb keqb vltb eqb dflt s o tr Hs HT Hd HR Hok.
  pose proof (proj1 (kreach_inv_any key kltb keqb vltb eqb dflt HT Hd s HR)) as HSh.
  apply free_kstep; try assumption; intros; (intros ? ? ? || intros ? ?); reflexivity.
Qed.

(** * Every operation of ModelEffect.v does what EffectSpec.v says *)
From Verif Require Import PyBase Model Spec History BaseFacts SpecFacts SliceFacts IndexFacts Shape CoreFacts VtFacts
  KeyFacts KeyLook ListSim HeapFacts HeapSim FaultSpec FaultHist ModelEffect EffectSpec EffectFacts.
From Coq Require Import Sorting.Permutation Sorting.Sorted.
Local Unset Implicit Arguments.

Definition went {S V} (P : out V -> S -> Prop) (p : out V * S) : Prop := P (fst p) (snd p).
Lemma went_obs {S V A} (inj : A -> out V) (m : M S A) s Q E (P : out V -> S -> Prop) : post m s Q E ->
  (forall a s', Q a s' -> P (inj a) s') -> (forall e s', E e s' -> P (RExn e) s') -> went P (observe inj m s).
Proof. unfold post, went, observe. intros H HQ HE. destruct (m s) as [[a|e] s']; cbn [fst snd]; auto. Qed.
Lemma went_res {S V A} (inj : A -> out V) (m : M S A) s r s' (P : out V -> S -> Prop) : m s = (r, s') ->
  P (of_res inj r) s' -> went P (observe inj m s).
Proof. unfold went, observe. intros -> H. destruct r; exact H. Qed.
Lemma went_imp {S V} (P Q : out V -> S -> Prop) p : went P p -> (forall r s, P r s -> Q r s) -> went Q p.
Proof. unfold went. auto. Qed.
Lemma zero_step {V} sl (l : list V) : s_step sl = Some 0%Z -> sp_del_slice sl l = Err ValueError.
Proof. intros H. unfold sp_del_slice, slice_indices. rewrite H. reflexivity. Qed.

Lemma post_user_last {W S A} (m : M W A) w (c : S) P (R : exn -> Prop) (Q : A -> W * S -> Prop) (E : exn -> W * S -> Prop) : calls_to m P R ->
  (forall w' a, P a -> Q a (w', c)) -> (forall w' e, R e -> E e (w', c)) -> post (user m) (w, c) Q E.
Proof.
  intros H HQ HE. specialize (H w). unfold post, user, zoom. cbn [fst snd]. destruct (m w) as [[a|e] w']; cbn in *; auto.
Qed.

Section Common.
  Context {S V K : Type}.
  Variable T : vtable S V K.
  Variable Inv : S -> Prop.
  Hypothesis HT : VtOK T Inv.
  Variable R : exn -> Prop.
  Variable Bad : list V -> S -> Prop.
  Hypothesis refill : forall s l, Inv s -> vcont T s = [] ->
    post (vt_update T l) s (fun _ s' => Inv s' /\ Permutation (vcont T s') l) (fun e s' => R e /\ Bad l s').

  Definition exactly (o : lop V) s (r : out V) (s' : S) : Prop := exact_ref o r (vcont T s) (vcont T s') /\ Inv s'.
  Lemma read_ok {A} (inj : A -> out V) (m : M (core V K) A) o s r c' : Inv s -> m (vt_get T s) = (r, c') -> touch (vt_get T s) c' ->
    exact_ref o (of_res inj r) (vcont T s) (vcont T s) -> went (exactly o s) (observe inj (oncore T m) s).
  Proof.
    intros HI E Ht H. destruct (oncore_ok T Inv HT m s r c' HI E Ht) as (s' & E1 & H1 & H2 & _).
    apply (went_res _ _ _ _ _ _ E1). split; [rewrite H2; exact H|exact H1].
  Qed.
  Lemma get_went i s : Inv s -> went (exactly (LGet i) s) (observe (@RVal V) (oncore T (getitem_int i)) s).
  Proof.
    intros HI. destruct (getitem_int_ok (vt_get T s) i (vo_core _ _ HT s HI)) as (c' & E & Ht). apply (read_ok _ _ _ _ _ _ HI E Ht). reflexivity.
  Qed.
  Lemma slice_went sl s : Inv s -> went (exactly (LSlice sl) s) (observe (@RList V) (oncore T (getitem_slice sl)) s).
  Proof.
    intros HI. destruct (getitem_slice_ok (vt_get T s) sl (vo_core _ _ HT s HI)) as (c' & E & Ht). apply (read_ok _ _ _ _ _ _ HI E Ht). reflexivity.
  Qed.
  Lemma len_went s : Inv s -> went (exactly LLen s) (observe (@RNat V) (oncore T length_of) s).
  Proof.
    intros HI. pose proof (vo_core _ _ HT s HI) as HC. apply (read_ok _ length_of LLen s (Ok (len (vt_get T s))) (vt_get T s) HI eq_refl (touch_refl _ HC)).
    unfold exact_ref. cbn [of_res sp_step]. rewrite (co_len _ HC). reflexivity.
  Qed.
  Lemma iter_went s : Inv s -> went (exactly LIter s) (observe (@RList V) (oncore T iter) s).
  Proof.
    intros HI. pose proof (vo_core _ _ HT s HI) as HC.
    apply (read_ok _ iter LIter s (Ok (contents (vt_get T s))) (vt_get T s) HI eq_refl (touch_refl _ HC)). reflexivity.
  Qed.
  Lemma reversed_went s : Inv s -> went (exactly LReversed s) (observe (@RList V) (oncore T reversed) s).
  Proof.
    intros HI. pose proof (vo_core _ _ HT s HI) as HC.
    apply (read_ok _ reversed LReversed s _ (vt_get T s) HI (reversed_ok _) (touch_refl _ HC)). reflexivity.
  Qed.
  Lemma islice_went a b r s : Inv s -> went (exactly (LISlice a b r) s) (observe (@RList V) (oncore T (islice a b r)) s).
  Proof.
    intros HI. pose proof (vo_core _ _ HT s HI) as HC. destruct (islice_ok (vt_get T s) a b r HC) as (x & c' & E & Ht & E1).
    apply (read_ok _ _ _ _ _ _ HI E Ht). unfold exact_ref. cbn [sp_step]. fold (vcont T s) in E1. rewrite E1. reflexivity.
  Qed.
  Lemma clear_went s : Inv s -> went (exactly LClear s) (observe runit (vt_clear T) s).
  Proof.
    intros HI. destruct (vo_clear _ _ HT s HI) as (s' & E & H1 & H2 & _). apply (went_res _ _ _ _ _ _ E). split; [|exact H1].
    rewrite H2. reflexivity.
  Qed.
  Lemma del_went i s : Inv s -> went (exactly (LDel i) s) (observe runit (delitem_int T i) s).
  Proof.
    intros HI. destruct (delitem_int_ok T Inv HT s i HI) as [(s' & l' & E & E1 & H1 & H2 & _)|[E E1]]; apply (went_res _ _ _ _ _ _ E);
      (split; [|assumption]); unfold exact_ref; cbn [sp_step of_res]; rewrite E1; [rewrite H2|]; reflexivity.
  Qed.
  Lemma pop_went i s : Inv s -> went (exactly (LPop i) s) (observe (@RVal V) (pop T i) s).
  Proof.
    intros HI. destruct (pop_ok T Inv HT s i HI) as [(s' & v & l' & E & E0 & E1 & H1 & H2 & _)|[E E1]]; apply (went_res _ _ _ _ _ _ E);
      (split; [|assumption]); unfold exact_ref; cbn [sp_step of_res]; [rewrite E0, E1, H2|rewrite E1]; reflexivity.
  Qed.
  Lemma unsupported_went s : Inv s -> went (exactly LUnsupported s) (observe runit (@unsupported S) s).
  Proof. intros HI. split; [reflexivity|exact HI]. Qed.

  (** Operations that clear and fill again. *)
  Definition refilled (l1 : list V) (r : out V) (s' : S) : Prop :=
    (r = RUnit /\ Permutation (vcont T s') l1 /\ Inv s') \/ (exists e, r = RExn e /\ R e /\ Bad l1 s').
  Lemma refill_went l (m : M S unit) s s3 : m s = vt_update T l s3 -> Inv s3 -> vcont T s3 = [] -> went (refilled l) (observe runit m s).
  Proof.
    intros E HI Hc. pose proof (refill s3 l HI Hc) as H. unfold went, observe. rewrite E. unfold post in H.
    destruct (vt_update T l s3) as [[[]|e] s']; cbn [fst snd].
    - left. split; [reflexivity|]. tauto.
    - right. exists e. tauto.
  Qed.
  Lemma delslice_went sl s : Inv s ->
    went (fun r s' => match sp_del_slice sl (vcont T s) with
                      | Ok l1 => s_step sl <> Some 0%Z /\ refilled l1 r s'
                      | Err e => r = RExn e /\ s' = s
                      end) (observe runit (delitem_slice T sl) s).
  Proof.
    intros HI. destruct (delitem_slice_via T Inv HT s sl HI) as [(s' & l' & E & E1 & H1 & H2 & _)|[(E1 & Ez & E)|(s3 & l' & E1 & H1 & H2 & _ & E)]].
    - apply (went_res _ _ _ _ _ _ E). rewrite E1. split; [intros Hz; rewrite (zero_step _ _ Hz) in E1; discriminate|].
      left. split; [reflexivity|]. split; [rewrite H2; reflexivity|exact H1].
    - apply (went_res _ _ _ _ _ _ E). rewrite E1. auto.
    - rewrite E1. eapply went_imp; [exact (refill_went _ _ _ _ E H1 H2)|]. intros r s' H. split; [|exact H].
      intros Hz; rewrite (zero_step _ _ Hz) in E1; discriminate.
  Qed.
  Lemma reset_went ld s : Inv s -> 1 <= ld -> went (refilled (vcont T s)) (observe runit (reset T ld) s).
  Proof. intros HI Hld. destruct (reset_via T Inv HT ld s HI Hld) as (s3 & E & H1 & H2 & _). exact (refill_went _ _ _ _ E H1 H2). Qed.
  Lemma imul_went n s : Inv s -> went (refilled (sp_mul n (vcont T s))) (observe runit (imul T n) s).
  Proof. intros HI. destruct (imul_via T Inv HT n s HI) as (s3 & E & H1 & H2 & _). exact (refill_went _ _ _ _ E H1 H2). Qed.
End Common.

(** [obj = obj.copy()] and the like. *)
Lemma fresh_went {W S V} (empty : S) (m : M (W * S) unit) (f : S -> M (W * S) S) w s (P : out V -> W * S -> Prop) :
  f s = e_fresh empty m ->
  (forall w0, post m (w0, empty) (fun _ s' => P RUnit s') (fun e _ => forall w', P (RExn e) (w', s))) ->
  went P (@e_rebind W S V (c <- own get ;; f c) (w, s)).
Proof.
  intros E H. specialize (H w). unfold post in H. unfold went, e_rebind, bind, own, zoom, get. cbn [fst snd]. rewrite E. unfold e_fresh.
  cbn [fst snd]. destruct (m (w, empty)) as [[u|e] [w' s']]; cbn [fst snd] in *; [exact H|apply H].
Qed.

Section ListSteps.
  Context {W V : Type}.
  Variable srt : sorting W.
  Variables lt eq : V -> V -> M W bool.
  Variable dflt : nat.
  Hypothesis Hsrt : permutes srt.
  Hypothesis Hd : 1 <= dflt.
  Notation SL := (core V V).
  Notation R := (e_raises lt eq).
  Notation same := (fun x y => may_hold (eq x y)).
  Notation T := (e_vt srt lt).
  Definition l_good o (c : SL) (r : out V) (s' : W * SL) : Prop :=
    eff same R o (contents c) r (contents (snd s')) /\ (update_fine o r -> FrameL (snd s')).
  Definition l_bad (_ : list V) (s : W * SL) : Prop := contents (snd s) = [] /\ FrameL (snd s).

  Lemma l_refill s l : FrameLW s -> vcont T s = [] ->
    post (vt_update T l) s (fun _ s' => FrameLW s' /\ Permutation (vcont T s') l) (fun e s' => R e /\ l_bad l s').
  Proof.
    destruct s as [w c]. unfold FrameLW, vcont. cbn. intros HF Hc.
    eapply post_imp; [apply (l_update_post srt lt eq Hsrt l w c HF)| |]; cbv beta; rewrite Hc; cbn [app].
    - intros _ s' (H1 & _ & H2). auto.
    - intros e s' (H1 & _ & H2 & _). split; [exact H1|]. unfold l_bad. rewrite (H2 eq_refl). auto.
  Qed.
  Lemma l_refilled o c l1 r s' : refilled T FrameLW R l_bad l1 r s' ->
    (forall P, or_raised R r (Permutation (contents (snd s')) l1) (contents (snd s') = []) -> P -> eff same R o (contents c) r (contents (snd s'))) ->
    l_good o c r s'.
  Proof.
    intros H Hi. assert (G : FrameL (snd s') /\ or_raised R r (Permutation (contents (snd s')) l1) (contents (snd s') = [])).
    { destruct H as [(-> & H1 & H2)|(e & -> & H1 & H2 & H3)].
      - split; [exact H2|left; auto].
      - split; [exact H3|right; exists e; auto]. }
    split; [apply (Hi True); tauto|]. intros _. apply G.
  Qed.
  Lemma l_query {A} (inj : A -> out V) (m : M (W * SL) A) o doc (P : out V -> Prop) w c :
    (forall r l', eff same R o (contents c) r l' = query R doc P r (contents c) l') -> FrameL c ->
    post m (w, c) (fun a s' => touch c (snd s') /\ P (inj a)) (fun e s' => touch c (snd s') /\ (R e \/ doc e)) ->
    went (l_good o c) (observe inj m (w, c)).
  Proof.
    intros He HF H. eapply went_obs; [exact H| |]; cbv beta; unfold l_good; intros x s' [H1 H2]; rewrite He; (split; [split|]).
    - apply touch_contents, H1.
    - right. exact H2.
    - intros _. eapply framel_touch; eauto.
    - apply touch_contents, H1.
    - left. exists x. auto.
    - intros _. eapply framel_touch; eauto.
  Qed.
  Lemma l_new o l (f : SL -> M (W * SL) SL) w c : f c = e_new srt lt dflt l -> FrameL c ->
    (forall r l', eff same R o (contents c) r l' = or_raised R r (Permutation l' l) (l' = contents c)) ->
    went (l_good o c) (e_rebind (c <- own get ;; f c) (w, c)).
  Proof.
    intros E HF He. eapply fresh_went; [exact E|]. intros w0.
    assert (HE : FrameL (core_empty dflt : SL)) by apply (frame_empty 0 dflt Hd).
    eapply post_imp; [apply (l_update_post srt lt eq Hsrt l w0 _ HE)| |]; cbv beta.
    - intros _ s' (H1 & _ & H2). split; [rewrite He; left; split; [reflexivity|exact H2]|auto].
    - intros e s' (H1 & _) w'. split; [rewrite He; right; exists e; auto|auto].
  Qed.
  Lemma l_exact o c p : (forall r l', eff same R o (contents c) r l' = exact_ref o r (contents c) l') ->
    forall w, went (exactly T FrameLW o (w, c)) p -> went (l_good o c) p.
  Proof.
    intros He w H. eapply went_imp; [exact H|]. intros r s' [H1 H2]. split; [rewrite He; exact H1|auto].
  Qed.
  Lemma l_upd o it w c : match o with LUpdate i | LIAdd i => i = it | _ => False end -> FrameL c ->
    went (l_good o c) (observe runit (e_update srt lt it) (w, c)).
  Proof.
    intros Ho HF.
    assert (He : forall r l', eff same R o (contents c) r l' = or_raised R r (Permutation l' (contents c ++ it))
             (exists vs ws, Permutation l' (contents c ++ vs) /\ Permutation (vs ++ ws) it)) by (destruct o; try contradiction; subst; reflexivity).
    eapply went_obs; [apply (l_update_post srt lt eq Hsrt it w c HF)| |]; cbv beta.
    - intros [] s' (H1 & _ & H2). split; [rewrite He; left; auto|auto].
    - intros e s' (H1 & _ & _ & H2). split; [rewrite He; right; exists e; auto|]. destruct o; try contradiction; intros [].
  Qed.

  Lemma e_step_went o w c : FrameL c -> lop_ok o -> went (l_good o c) (e_step srt lt eq dflt o (w, c)).
  Proof.
    intros HF Hok. pose proof (touch_refl c (framel_core c HF)) as Hid. pose proof (e_vt_ok srt lt) as HT.
    destruct o; cbn [e_step lop_ok] in *.
    - eapply went_obs; [apply (l_add_post lt eq v w c HF)| |]; cbv beta.
      + intros [] s' (H1 & _ & l1 & l2 & H2 & H3). split; [|auto]. left. split; [reflexivity|]. rewrite H2, H3. symmetry. apply Permutation_middle.
      + intros e [w' c'] [H1 H2]. cbn [snd] in H1. subst c'. split; [|auto]. right. exists e. auto.
    - apply l_upd; auto.
    - apply (l_exact LClear c _ (fun _ _ => eq_refl) w). exact (clear_went T FrameLW HT (w, c) HF).
    - eapply went_obs.
      + eapply (l_find_post lt eq v tt _ (ret tt) w c (fun _ s' => (contents (snd s') = contents c \/ dropped same v (contents c) (contents (snd s'))) /\ FrameL (snd s'))
          (fun e s' => snd s' = c /\ (R e \/ e = IndexError)) HF).
        * intros w0. split; [left; reflexivity|exact HF].
        * intros w0 p i a x b e E1 E2 E3. destruct e; [|split; [left; reflexivity|exact HF]].
          destruct (framel_delete c a x b p i HF E1 E2) as (c' & E & H1 & H2 & _). unfold post, own, zoom. cbn [fst snd]. rewrite E. cbn [snd].
          split; [|exact H1]. right. exists a, x, b. auto.
        * intros w0 e He. split; [reflexivity|exact He].
      + intros [] s' [H1 H2]. split; [left; auto|auto].
      + intros e s' [H1 H2]. rewrite <- H1 in HF. split; [right; exists e; rewrite H1; auto|auto].
    - eapply went_obs.
      + eapply (l_find_post lt eq v tt _ (raise ValueError) w c (fun _ s' => dropped same v (contents c) (contents (snd s')) /\ FrameL (snd s'))
          (fun e s' => snd s' = c /\ (R e \/ e = IndexError \/ e = ValueError)) HF).
        * intros w0. split; [reflexivity|auto].
        * intros w0 p i a x b e E1 E2 E3. destruct e; [|split; [reflexivity|auto]].
          destruct (framel_delete c a x b p i HF E1 E2) as (c' & E & H1 & H2 & _). unfold post, own, zoom. cbn [fst snd]. rewrite E. cbn [snd].
          split; [|exact H1]. exists a, x, b. auto.
        * intros w0 e He. split; [reflexivity|tauto].
      + intros [] s' [H1 H2]. split; [left; auto|auto].
      + intros e s' [H1 H2]. rewrite <- H1 in HF. split; [right; exists e; rewrite H1; auto|auto].
    - eapply l_query; [reflexivity|exact HF|].
      eapply (l_find_post lt eq v false _ (ret false) w c _ _ HF).
      + intros w0. split; [exact Hid|]. exists false. split; [reflexivity|discriminate].
      + intros w0 p i a x b e E1 E2 E3. split; [exact Hid|]. exists e. split; [reflexivity|]. intros H. exists x. split; [|exact (E3 H)].
        rewrite E1. apply in_elt.
      + intros w0 e He. split; [exact Hid|exact He].
    - apply (l_exact (LGet i) c _ (fun _ _ => eq_refl) w). exact (get_went T FrameLW HT i (w, c) HF).
    - apply (l_exact (LSlice sl) c _ (fun _ _ => eq_refl) w). exact (slice_went T FrameLW HT sl (w, c) HF).
    - apply (l_exact (LDel i) c _ (fun _ _ => eq_refl) w). exact (del_went T FrameLW HT i (w, c) HF).
    - eapply went_imp; [exact (delslice_went T FrameLW HT R l_bad l_refill sl (w, c) HF)|]. intros r s' H. cbv beta in H.
      change (vcont T (w, c)) with (contents c) in H. unfold l_good. cbn [eff loose].
      destruct (sp_del_slice sl (contents c)) as [l1|e] eqn:Es.
      + destruct H as [_ H]. destruct H as [(-> & H1 & H2)|(e & -> & H1 & H2 & H3)].
        * split; [left; auto|auto].
        * split; [right; exists e; auto|auto].
      + destruct H as [-> ->]. auto.
    - apply (l_exact (LPop i) c _ (fun _ _ => eq_refl) w). exact (pop_went T FrameLW HT i (w, c) HF).
    - apply (l_exact LLen c _ (fun _ _ => eq_refl) w). exact (len_went T FrameLW HT (w, c) HF).
    - apply (l_exact LIter c _ (fun _ _ => eq_refl) w). exact (iter_went T FrameLW HT (w, c) HF).
    - apply (l_exact LReversed c _ (fun _ _ => eq_refl) w). exact (reversed_went T FrameLW HT (w, c) HF).
    - eapply l_query; [reflexivity|exact HF|]. eapply post_imp; [apply (l_rank_post lt eq _ v w c (l_left lt eq) HF)| |]; cbv beta.
      + intros n s' [H1 H2]. split; [exact H1|]. exists n. auto.
      + intros e s' [H1 H2]. auto.
    - eapply l_query; [reflexivity|exact HF|]. eapply post_imp; [apply (l_rank_post lt eq _ v w c (l_right lt eq) HF)| |]; cbv beta.
      + intros n s' [H1 H2]. split; [exact H1|]. exists n. auto.
      + intros e s' [H1 H2]. auto.
    - eapply l_query; [reflexivity|exact HF|]. eapply post_imp; [apply (l_count_post lt eq v w c HF)| |]; cbv beta.
      + intros n s' [H1 H2]. split; [exact H1|]. exists n. auto.
      + intros e s' [H1 H2]. auto.
    - eapply l_query; [reflexivity|exact HF|]. eapply post_imp; [apply (l_index_post lt eq v start stop w c HF)| |]; cbv beta.
      + intros n s' [H1 H2]. split; [exact H1|]. exists n. auto.
      + intros e s' [H1 H2]. auto.
    - eapply l_query; [reflexivity|exact HF|]. eapply post_imp; [apply (l_irange_post lt eq mn mx imin imax reverse w c HF)| |]; cbv beta.
      + intros n s' [H1 H2]. rewrite H1. auto.
      + intros e s' [H1 H2]. rewrite H1. auto.
    - apply (l_exact (LISlice start stop reverse) c _ (fun _ _ => eq_refl) w). exact (islice_went T FrameLW HT start stop reverse (w, c) HF).
    - eapply went_imp; [exact (reset_went T FrameLW HT R l_bad l_refill ld (w, c) HF Hok)|]. intros r s' H.
      apply (l_refilled _ _ _ _ _ H). intros P G _. exact G.
    - apply l_upd; auto.
    - eapply went_imp; [exact (imul_went T FrameLW HT R l_bad l_refill n (w, c) HF)|]. intros r s' H.
      apply (l_refilled _ _ _ _ _ H). intros P G _. exact G.
    - apply (l_new LCopy (contents c) (fun c => e_new srt lt dflt (concat (lists c))) w c eq_refl HF). reflexivity.
    - apply (l_new (LPlus it) (contents c ++ it) (fun c => e_new srt lt dflt (contents c ++ it)) w c eq_refl HF). reflexivity.
    - apply (l_new (LMul n) (sp_mul n (contents c)) (fun c => e_new srt lt dflt (list_mul (contents c) n)) w c eq_refl HF). reflexivity.
    - apply (l_new LReduce (contents c) (fun c => e_new srt lt dflt (contents c)) w c eq_refl HF). reflexivity.
    - eapply l_query; [reflexivity|exact HF|]. apply post_get.
      eapply post_user_last; [apply (e_compare_calls lt eq R op other c (R_lt lt eq) (R_eqv lt eq))| |].
      + intros w' b _. split; [exact Hid|]. exists b. reflexivity.
      + intros w' e He. split; [exact Hid|auto].
    - apply (l_exact LUnsupported c _ (fun _ _ => eq_refl) w). exact (unsupported_went T FrameLW (w, c) HF).
  Qed.

  Lemma e_run_frame h : forall s, FrameL (snd s) -> Forall (fun p => lop_ok (snd p)) h ->
    Forall2 update_fine (map snd h) (fst (e_run srt lt eq dflt h s)) -> FrameL (snd (snd (e_run srt lt eq dflt h s))).
  Proof.
    induction h as [|[w o] h IH]; intros s HF Hok Hfine; [exact HF|].
    inversion Hok as [|? ? Ho Hos]; subst. cbn [fst snd] in Ho. pose proof (e_step_went o w (snd s) HF Ho) as [_ H].
    unfold e_run in *. cbn [run map fst snd] in *. destruct (e_step srt lt eq dflt o (w, snd s)) as [r s1]. cbn [fst snd] in H.
    destruct (run _ h s1) as [rs s2] eqn:E. cbn [fst snd] in *. inversion Hfine as [|? ? ? ? F1 F2]; subst.
    specialize (IH s1 (H F1) Hos). rewrite E in IH. apply IH. exact F2.
  Qed.
  Lemma e_reach_frame c : e_reach srt lt eq dflt c -> FrameL c.
  Proof.
    intros (w0 & h & H1 & H2 & ->). apply e_run_frame; [|assumption|assumption]. apply (frame_empty 0 dflt Hd).
  Qed.
End ListSteps.

Section KeySteps.
  Context {W V K : Type}.
  Variable srt : sorting W.
  Variables vlt eq : V -> V -> M W bool.
  Variables klt keq : K -> K -> M W bool.
  Variable kf : V -> M W K.
  Variable dflt : nat.
  Hypothesis Hsrt : permutes srt.
  Hypothesis Hd : 1 <= dflt.
  Notation SKL := (skl V K).
  Notation R := (ek_raises vlt eq klt keq kf).
  Notation same := (fun x y => may_hold (eq x y)).
  Notation T := (ek_vt srt klt kf).
  Notation cont := (fun s : SKL => contents (kc s)).
  Definition k_good (o : kop V K) (s : SKL) (r : out V) (s' : W * SKL) : Prop :=
    keff same R o (contents (kc s)) r (contents (kc (snd s'))) /\ (refill_fine o r -> Frame (snd s')).
  Definition k_bad (l : list V) (s : W * SKL) : Prop := contents (kc (snd s)) = [] \/ Permutation (contents (kc (snd s))) l.

  Lemma k_refill s l : FrameW s -> vcont T s = [] ->
    post (vt_update T l) s (fun _ s' => FrameW s' /\ Permutation (vcont T s') l) (fun e s' => R e /\ k_bad l s').
  Proof.
    destruct s as [w c]. unfold FrameW, vcont. cbn. intros HF Hc.
    eapply post_imp; [apply (k_update_post srt vlt eq klt keq kf Hsrt l w c HF)| |]; cbv beta.
    - intros _ s' (H1 & _ & H2). rewrite Hc in H2. auto.
    - intros e s' (H1 & _ & H2 & _). split; [exact H1|exact (H2 Hc)].
  Qed.
  Lemma k_refilled o s l1 r s' : refilled T FrameW R k_bad l1 r s' -> (forall e, refill_fine o (RExn e) -> False) ->
    (or_raised R r (Permutation (contents (kc (snd s'))) l1) (k_bad l1 s') -> keff same R o (contents (kc s)) r (contents (kc (snd s')))) ->
    k_good o s r s'.
  Proof.
    intros [(-> & H1 & H2)|(e & -> & H1 & H2)] Hf Hi.
    - split; [apply Hi; left; auto|]. intros _. exact H2.
    - split; [apply Hi; right; exists e; auto|]. intros H. destruct (Hf _ H).
  Qed.
  Lemma k_query {A} (inj : A -> out V) (m : M (W * SKL) A) o doc (P : out V -> Prop) w s :
    (forall r l', keff same R o (contents (kc s)) r l' = query R doc P r (contents (kc s)) l') -> Frame s ->
    post m (w, s) (fun a s' => ktouch s (snd s') /\ P (inj a)) (fun e s' => ktouch s (snd s') /\ (R e \/ doc e)) ->
    went (k_good o s) (observe inj m (w, s)).
  Proof.
    intros He HF H. eapply went_obs; [exact H| |]; cbv beta; unfold k_good; intros x s' [H1 H2]; rewrite He; (split; [split|]).
    - apply ktouch_contents, H1.
    - right. exact H2.
    - intros _. eapply ktouch_frame; eauto.
    - apply ktouch_contents, H1.
    - left. exists x. auto.
    - intros _. eapply ktouch_frame; eauto.
  Qed.
  Lemma k_new o l (f : SKL -> M (W * SKL) SKL) w s : f s = ek_new srt klt kf dflt l -> Frame s ->
    (forall r l', keff same R o (contents (kc s)) r l' = or_raised R r (Permutation l' l) (l' = contents (kc s))) ->
    went (k_good o s) (e_rebind (s <- own get ;; f s) (w, s)).
  Proof.
    intros E HF He. eapply fresh_went; [exact E|]. intros w0.
    assert (HE : Frame (skl_empty dflt : SKL)) by apply (frame_empty 0 dflt Hd).
    eapply post_imp; [apply (k_update_post srt vlt eq klt keq kf Hsrt l w0 _ HE)| |]; cbv beta.
    - intros _ s' (H1 & _ & H2). split; [rewrite He; left; split; [reflexivity|exact H2]|auto].
    - intros e s' (H1 & _) w'. split; [rewrite He; right; exists e; auto|auto].
  Qed.
  Lemma k_exact o s p : (forall r l', keff same R (@KList V K o) (contents (kc s)) r l' = exact_ref o r (contents (kc s)) l') ->
    forall w, went (exactly T FrameW o (w, s)) p -> went (k_good (@KList V K o) s) p.
  Proof.
    intros He w H. eapply went_imp; [exact H|]. intros r s' [H1 H2]. split; [rewrite He; exact H1|auto].
  Qed.
  Lemma k_upd o it w s : match o with LUpdate i | LIAdd i => i = it | _ => False end -> Frame s ->
    went (k_good (KList o) s) (observe runit (ek_update srt klt kf it) (w, s)).
  Proof.
    intros Ho HF.
    assert (He : forall r l', keff same R (@KList V K o) (contents (kc s)) r l' = or_raised R r (Permutation l' (contents (kc s) ++ it))
             (exists vs ws, Permutation l' (contents (kc s) ++ vs) /\ Permutation (vs ++ ws) it)) by (destruct o; try contradiction; subst; reflexivity).
    eapply went_obs; [apply (k_update_post srt vlt eq klt keq kf Hsrt it w s HF)| |]; cbv beta.
    - intros [] s' (H1 & _ & H2). split; [rewrite He; left; auto|auto].
    - intros e s' (H1 & _ & _ & H2). split; [rewrite He; right; exists e; auto|]. destruct o; try contradiction; intros [].
  Qed.
  Lemma key_opt_calls o : calls_to (e_key_opt kf o) (fun _ => True) R.
  Proof.
    destruct o as [v|]; [|apply calls_ret; exact I]. intros w. unfold e_key_opt, bind. pose proof (kf_calls vlt eq klt keq kf v w) as H.
    destruct (kf v w) as [[k|e] w']; [exact I|exact H].
  Qed.

  Lemma ek_lstep_went o w s : Frame s -> lop_ok o -> went (k_good (KList o) s) (ek_lstep srt vlt eq klt keq kf dflt o (w, s)).
  Proof.
    intros HF Hok. pose proof (ktouch_id s HF) as Hid. pose proof (ek_vt_ok srt klt kf) as HT.
    assert (SAME : forall s', s' = s -> ktouch s s') by (intros ? ->; exact Hid).
    destruct o; cbn [ek_lstep lop_ok] in *.
    - eapply went_obs; [apply (k_add_post vlt eq klt keq kf v w s HF)| |]; cbv beta.
      + intros [] s' (H1 & _ & l1 & l2 & H2 & H3). split; [|auto]. left. split; [reflexivity|]. rewrite H2, H3. symmetry. apply Permutation_middle.
      + intros e [w' c'] [H1 H2]. cbn [snd] in H1. subst c'. split; [|auto]. right. exists e. auto.
    - apply k_upd; auto.
    - apply (k_exact LClear s _ (fun _ _ => eq_refl) w). exact (clear_went T FrameW HT (w, s) HF).
    - eapply went_obs.
      + unfold ek_discard. eapply (post_bind _ _ _ (fun r s' => snd s' = s /\ found_at eq s v r) (fun _ s' => (contents (kc (snd s')) = contents (kc s) \/ dropped same v (contents (kc s)) (contents (kc (snd s')))) /\ Frame (snd s'))
          (fun e s' => snd s' = s /\ (R e \/ e = IndexError))); [exact (k_find_post vlt eq klt keq kf v w s HF)|].
        intros [[p i]|] [w' s'] [E H]; cbn [snd] in E; subst s'; [|split; [left; reflexivity|exact HF]].
        destruct H as (a & x & b & E1 & E2 & E3).
        destruct (frame_delete s a x b p i HF E1 E2) as (c' & E & H1 & H2 & _). unfold post, own, zoom. cbn [fst snd]. rewrite E. cbn [snd].
        split; [|exact H1]. right. exists a, x, b. auto.
      + intros [] s' [H1 H2]. split; [left; auto|auto].
      + intros e s' [H1 H2]. rewrite <- H1 in HF. split; [right; exists e; rewrite H1; auto|auto].
    - eapply went_obs.
      + unfold ek_remove. eapply (post_bind _ _ _ (fun r s' => snd s' = s /\ found_at eq s v r) (fun _ s' => dropped same v (contents (kc s)) (contents (kc (snd s'))) /\ Frame (snd s'))
          (fun e s' => snd s' = s /\ (R e \/ e = IndexError \/ e = ValueError))).
        { eapply post_imp; [exact (k_find_post vlt eq klt keq kf v w s HF)|auto|]. intros e s' [H1 [H2|H2]]; auto. }
        intros [[p i]|] [w' s'] [E H]; cbn [snd] in E; subst s'; [|split; [reflexivity|auto]].
        destruct H as (a & x & b & E1 & E2 & E3).
        destruct (frame_delete s a x b p i HF E1 E2) as (c' & E & H1 & H2 & _). unfold post, own, zoom. cbn [fst snd]. rewrite E. cbn [snd].
        split; [|exact H1]. exists a, x, b. auto.
      + intros [] s' [H1 H2]. split; [left; auto|auto].
      + intros e s' [H1 H2]. rewrite <- H1 in HF. split; [right; exists e; rewrite H1; auto|auto].
    - eapply k_query; [reflexivity|exact HF|]. unfold ek_contains.
      eapply (post_bind _ _ _ (fun r s' => snd s' = s /\ found_at eq s v r)).
      + eapply post_imp; [exact (k_find_post vlt eq klt keq kf v w s HF)|auto|]. intros e s' [H1 H2]. split; [apply SAME, H1|exact H2].
      + intros [[p i]|] [w' s'] [E H]; cbn [snd] in E; subst s'; (split; [exact Hid|]).
        * destruct H as (a & x & b & E1 & E2 & E3). exists true. split; [reflexivity|]. intros _. exists x. rewrite E1. split; [apply in_elt|exact E3].
        * exists false. split; [reflexivity|discriminate].
    - apply (k_exact (LGet i) s _ (fun _ _ => eq_refl) w). exact (get_went T FrameW HT i (w, s) HF).
    - apply (k_exact (LSlice sl) s _ (fun _ _ => eq_refl) w). exact (slice_went T FrameW HT sl (w, s) HF).
    - apply (k_exact (LDel i) s _ (fun _ _ => eq_refl) w). exact (del_went T FrameW HT i (w, s) HF).
    - eapply went_imp; [exact (delslice_went T FrameW HT R k_bad k_refill sl (w, s) HF)|]. intros r s' H. cbv beta in H.
      change (vcont T (w, s)) with (contents (kc s)) in H. unfold k_good. cbn [keff refill_fine].
      destruct (sp_del_slice sl (contents (kc s))) as [l1|e] eqn:Es.
      + destruct H as [Hz H]. destruct H as [(-> & H1 & H2)|(e & -> & H1 & H2)].
        * split; [left; auto|auto].
        * split; [right; exists e; auto|contradiction].
      + destruct H as [-> ->]. auto.
    - apply (k_exact (LPop i) s _ (fun _ _ => eq_refl) w). exact (pop_went T FrameW HT i (w, s) HF).
    - apply (k_exact LLen s _ (fun _ _ => eq_refl) w). exact (len_went T FrameW HT (w, s) HF).
    - apply (k_exact LIter s _ (fun _ _ => eq_refl) w). exact (iter_went T FrameW HT (w, s) HF).
    - apply (k_exact LReversed s _ (fun _ _ => eq_refl) w). exact (reversed_went T FrameW HT (w, s) HF).
    - eapply k_query; [reflexivity|exact HF|]. unfold ek_rank.
      eapply post_user; [apply (kf_calls vlt eq klt keq kf)| |].
      + intros w' k _. eapply post_imp; [apply (k_rank_post srt vlt eq klt keq kf _ k w' s (k_left vlt eq klt keq kf) HF)| |]; cbv beta.
        * intros n s' [H1 H2]. split; [exact H1|]. exists n. auto.
        * intros e s' [H1 H2]. auto.
      + intros w' e He. auto.
    - eapply k_query; [reflexivity|exact HF|]. unfold ek_rank.
      eapply post_user; [apply (kf_calls vlt eq klt keq kf)| |].
      + intros w' k _. eapply post_imp; [apply (k_rank_post srt vlt eq klt keq kf _ k w' s (k_right vlt eq klt keq kf) HF)| |]; cbv beta.
        * intros n s' [H1 H2]. split; [exact H1|]. exists n. auto.
        * intros e s' [H1 H2]. auto.
      + intros w' e He. auto.
    - eapply k_query; [reflexivity|exact HF|]. eapply post_imp; [apply (k_count_post vlt eq klt keq kf v w s HF)| |]; cbv beta.
      + intros n s' [H1 H2]. split; [apply SAME, H1|]. exists n. auto.
      + intros e s' [H1 H2]. split; [apply SAME, H1|exact H2].
    - eapply k_query; [reflexivity|exact HF|]. eapply post_imp; [apply (k_index_post srt vlt eq klt keq kf v start stop w s HF)| |]; cbv beta.
      + intros n s' [H1 H2]. split; [exact H1|]. exists n. auto.
      + intros e s' [H1 H2]. auto.
    - eapply k_query; [reflexivity|exact HF|]. unfold ek_irange.
      eapply post_user; [apply key_opt_calls| |intros w' e He; auto]. intros w1 kmin _.
      eapply post_user; [apply key_opt_calls| |intros w' e He; auto]. intros w2 kmax _.
      eapply post_imp; [apply (k_irange_post vlt eq klt keq kf kmin kmax imin imax reverse w2 s HF)| |]; cbv beta.
      + intros n s' [H1 H2]. split; [apply SAME, H1|exact H2].
      + intros e s' [H1 H2]. split; [apply SAME, H1|auto].
    - apply (k_exact (LISlice start stop reverse) s _ (fun _ _ => eq_refl) w). exact (islice_went T FrameW HT start stop reverse (w, s) HF).
    - eapply went_imp; [exact (reset_went T FrameW HT R k_bad k_refill ld (w, s) HF Hok)|]. intros r s' H.
      apply (k_refilled _ _ _ _ _ H); [intros e []|]. intros G. exact G.
    - apply k_upd; auto.
    - eapply went_imp; [exact (imul_went T FrameW HT R k_bad k_refill n (w, s) HF)|]. intros r s' H.
      apply (k_refilled _ _ _ _ _ H); [intros e []|]. intros G. exact G.
    - apply (k_new (KList LCopy) (contents (kc s)) (fun s => ek_new srt klt kf dflt (concat (lists (kc s)))) w s eq_refl HF). reflexivity.
    - apply (k_new (KList (LPlus it)) (contents (kc s) ++ it) (fun s => ek_new srt klt kf dflt (contents (kc s) ++ it)) w s eq_refl HF). reflexivity.
    - apply (k_new (KList (LMul n)) (sp_mul n (contents (kc s))) (fun s => ek_new srt klt kf dflt (list_mul (contents (kc s)) n)) w s eq_refl HF). reflexivity.
    - apply (k_new (KList LReduce) (contents (kc s)) (fun s => ek_new srt klt kf dflt (contents (kc s))) w s eq_refl HF). reflexivity.
    - eapply k_query; [reflexivity|exact HF|]. apply post_get.
      eapply post_user_last; [apply (e_compare_calls vlt eq R op other (kc s) (R_vlt vlt eq klt keq kf) (R_eq vlt eq klt keq kf))| |].
      + intros w' b _. split; [exact Hid|]. exists b. reflexivity.
      + intros w' e He. split; [exact Hid|auto].
    - apply (k_exact LUnsupported s _ (fun _ _ => eq_refl) w). exact (unsupported_went T FrameW (w, s) HF).
  Qed.
  Lemma ek_step_went o w s : Frame s -> kop_ok o -> went (k_good o s) (ek_step srt vlt eq klt keq kf dflt o (w, s)).
  Proof.
    intros HF Hok. pose proof (ktouch_id s HF) as Hid. destruct o as [o|k|k|mn mx a b r]; cbn [ek_step].
    - apply ek_lstep_went; assumption.
    - eapply k_query; [reflexivity|exact HF|]. eapply post_imp; [apply (k_rank_post srt vlt eq klt keq kf _ k w s (k_left vlt eq klt keq kf) HF)| |]; cbv beta.
      + intros n s' [H1 H2]. split; [exact H1|]. exists n. auto.
      + intros e s' [H1 H2]. auto.
    - eapply k_query; [reflexivity|exact HF|]. eapply post_imp; [apply (k_rank_post srt vlt eq klt keq kf _ k w s (k_right vlt eq klt keq kf) HF)| |]; cbv beta.
      + intros n s' [H1 H2]. split; [exact H1|]. exists n. auto.
      + intros e s' [H1 H2]. auto.
    - eapply k_query; [reflexivity|exact HF|]. eapply post_imp; [apply (k_irange_post vlt eq klt keq kf mn mx a b r w s HF)| |]; cbv beta.
      + intros n s' [H1 H2]. rewrite H1. auto.
      + intros e s' [H1 H2]. rewrite H1. auto.
  Qed.

  Lemma ek_run_frame h : forall s, Frame (snd s) -> Forall (fun p => kop_ok (snd p)) h ->
    Forall2 refill_fine (map snd h) (fst (ek_run srt vlt eq klt keq kf dflt h s)) -> Frame (snd (snd (ek_run srt vlt eq klt keq kf dflt h s))).
  Proof.
    induction h as [|[w o] h IH]; intros s HF Hok Hfine; [exact HF|].
    inversion Hok as [|? ? Ho Hos]; subst. cbn [fst snd] in Ho. pose proof (ek_step_went o w (snd s) HF Ho) as [_ H].
    unfold ek_run in *. cbn [run map fst snd] in *. destruct (ek_step srt vlt eq klt keq kf dflt o (w, snd s)) as [r s1]. cbn [fst snd] in H.
    destruct (run _ h s1) as [rs s2] eqn:E. cbn [fst snd] in *. inversion Hfine as [|? ? ? ? F1 F2]; subst.
    specialize (IH s1 (H F1) Hos). rewrite E in IH. apply IH. exact F2.
  Qed.
  Lemma ek_reach_frame s : ek_reach srt vlt eq klt keq kf dflt s -> Frame s.
  Proof.
    intros (w0 & h & H1 & H2 & ->). apply ek_run_frame; [|assumption|assumption]. apply (frame_empty 0 dflt Hd).
  Qed.
End KeySteps.

Lemma frame_framed {V K} (s : skl V K) : Frame s -> framed (kc s).
Proof.
  intros HF. pose proof (frame_core s HF) as HC. split; [exact (co_len _ HC)|]. split; [apply frame_lens; exact HF|].
  destruct HF as (rows & H & _). destruct H as [H1 _ _ H4 _ [H6 H7] _]. cbn in H1, H6, H7. rewrite H1. split; [|exact H7]. rewrite Forall_map in *.
  apply Forall_forall. intros r Hr. rewrite Forall_forall in H4, H6. split.
  - exact (row_ok_ne _ r (H4 r Hr)).
  - specialize (H6 r Hr). cbn in H6. lia.
Qed.

(** * When calls answer as functions, the methods of ModelEffect.v answer as those of Model.v *)
From Verif Require Import PyBase Model Spec History BaseFacts SpecFacts SliceFacts IndexFacts Shape CoreFacts VtFacts
  KeyFacts KeyLook ListSim FaultFacts FaultSpec ModelEffect EffectSpec EffectSameSpec.
From Coq Require Import Sorting.Permutation.
Local Unset Implicit Arguments.

Section Calm.
  Context {W S : Type}.
  (** [m] does in state [s] what [m'] does, and anything to the world. *)
  Definition Calm {A} (m : M (W * S) A) (m' : M S A) (s : S) : Prop := forall w, exists w', m (w, s) = (fst (m' s), (w', snd (m' s))).
  Lemma calm_own {A} (m : M S A) s : Calm (own m) m s.
  Proof. intros w. exists w. unfold own, zoom. cbn. destruct (m s); reflexivity. Qed.
  Lemma calm_user {A} (m : M W A) r s : (forall w, fst (m w) = r) -> Calm (user m) (liftr r) s.
  Proof. intros H w. unfold user, zoom. cbn. specialize (H w). destruct (m w) as [r' w']. cbn in *. subst r'. exists w'. reflexivity. Qed.
  Lemma calm_ret {A} (a : A) s : Calm (ret a) (ret a) s.
  Proof. intros w. exists w. reflexivity. Qed.
  Lemma calm_raise {A} e s : Calm (@raise _ A e) (raise e) s.
  Proof. intros w. exists w. reflexivity. Qed.
  Lemma calm_liftr {A} (r : res A) s : Calm (liftr r) (liftr r) s.
  Proof. intros w. exists w. reflexivity. Qed.
  Lemma calm_bind_at {A B} (m : M (W * S) A) m' (k : A -> M (W * S) B) k' s : Calm m m' s ->
    (forall a s', m' s = (Ok a, s') -> Calm (k a) (k' a) s') -> Calm (bind m k) (bind m' k') s.
  Proof.
    intros H HK w. unfold bind. destruct (H w) as [w1 E1]. rewrite E1.
    destruct (m' s) as [[a|e] s'] eqn:E; cbn [fst snd]; [apply HK; reflexivity|]. exists w1. reflexivity.
  Qed.
  Lemma calm_bind {A B} (m : M (W * S) A) m' (k : A -> M (W * S) B) k' s : Calm m m' s ->
    (forall a s', Calm (k a) (k' a) s') -> Calm (bind m k) (bind m' k') s.
  Proof. intros H HK. apply calm_bind_at; auto. Qed.
  Lemma calm_forM {A} (f : A -> M (W * S) unit) f' : (forall a s, Calm (f a) (f' a) s) -> forall l s, Calm (forM f l) (forM f' l) s.
  Proof.
    intros H l. induction l as [|a l IH]; intros s; [apply calm_ret|]. cbn [forM]. apply calm_bind; auto.
  Qed.
  Lemma calm_obs {V A} (inj : A -> out V) (m : M (W * S) A) m' s w : Calm m m' s ->
    exists w', observe inj m (w, s) = (fst (observe inj m' s), (w', snd (observe inj m' s))).
  Proof. intros H. unfold observe. destruct (H w) as [w1 E]. rewrite E. exists w1. destruct (m' s) as [[a|e] s']; reflexivity. Qed.
  Lemma calm_rebind {V} (empty : S) (m : M (W * S) unit) (m' : M S unit) (f : S -> M (W * S) S) (f' : S -> res S) s w : Calm m m' empty ->
    f s = e_fresh empty m -> f' s = match m' empty with (Ok _, c) => Ok c | (Err e, _) => Err e end ->
    exists w', @e_rebind W S V (c <- own get ;; f c) (w, s) =
    (fst (@rebind S V (c <- get ;; liftr (f' c)) s), (w', snd (@rebind S V (c <- get ;; liftr (f' c)) s))).
  Proof.
    intros H E E'. unfold e_rebind, rebind, bind, own, zoom, get, liftr. cbn [fst snd]. rewrite E, E'. unfold e_fresh. cbn [fst snd].
    destruct (H w) as [w1 E1]. rewrite E1. exists w1. destruct (m' empty) as [[u|e] c']; reflexivity.
  Qed.
End Calm.

(** A call that answers [r]. *)
Lemma told {W A} (m : M W A) r w : fst (m w) = r -> exists w', m w = (r, w').
Proof. destruct (m w) as [r' w']. cbn. intros ->. exists w'. reflexivity. Qed.
Ltac tell H := let w' := fresh "w" in let E := fresh "E" in destruct (told _ _ _ H) as [w' E]; rewrite E; clear E.
Lemma told_bind {W A B} (m : M W A) (k : A -> M W B) r (k' : A -> res B) w : fst (m w) = r -> (forall a w', r = Ok a -> fst (k a w') = k' a) ->
  fst (bind m k w) = rbind r k'.
Proof. intros H HK. unfold bind. tell H. destruct r as [a|e]; [apply HK; reflexivity|reflexivity]. Qed.

Section Pieces.
  Context {W A : Type}.
  Variable lt : A -> A -> res bool.
  Variable lt' : A -> A -> M W bool.
  Hypothesis Hlt : answers2 lt' lt.
  Lemma free_right_loop fuel : forall a x lo hi (w : W), fst (e_bisect_right_loop lt' fuel a x lo hi w) = bisect_right_loop lt fuel a x lo hi.
  Proof.
    induction fuel as [|f IH]; intros a x lo hi w; [reflexivity|]. cbn [e_bisect_right_loop bisect_right_loop].
    destruct (lo <? hi); [|reflexivity]. apply told_bind; [reflexivity|]. intros y w1 _. apply told_bind; [apply Hlt|]. intros [] w2 _; apply IH.
  Qed.
  Lemma free_left_loop fuel : forall a x lo hi (w : W), fst (e_bisect_left_loop lt' fuel a x lo hi w) = bisect_left_loop lt fuel a x lo hi.
  Proof.
    induction fuel as [|f IH]; intros a x lo hi w; [reflexivity|]. cbn [e_bisect_left_loop bisect_left_loop].
    destruct (lo <? hi); [|reflexivity]. apply told_bind; [reflexivity|]. intros y w1 _. apply told_bind; [apply Hlt|]. intros [] w2 _; apply IH.
  Qed.
  Lemma free_right a x (w : W) : fst (e_bisect_right lt' a x w) = bisect_right lt a x.
  Proof. apply free_right_loop. Qed.
  Lemma free_left a x (w : W) : fst (e_bisect_left lt' a x w) = bisect_left lt a x.
  Proof. apply free_left_loop. Qed.
  Lemma free_mapM {B} (f : A -> res B) f' l (w : W) : answers1 f' f -> fst (mapM f' l w) = mapR f l.
  Proof.
    intros H. revert w. induction l as [|a l IH]; intros w; [reflexivity|]. cbn [mapM mapR]. apply told_bind; [apply H|]. intros b w1 _.
    apply told_bind; [apply IH|]. reflexivity.
  Qed.
End Pieces.
Lemma free_cmp {W V} (lt eq : V -> V -> res bool) (lt' eq' : V -> V -> M W bool) op n m l : answers2 lt' lt -> answers2 eq' eq ->
  forall o (w : W), fst (e_cmp_loop lt' eq' op n m l o w) = cmp_loop lt eq op n m l o.
Proof.
  intros H1 H2. induction l as [|a l IH]; intros o w; [reflexivity|]. destruct o as [|b o]; [reflexivity|]. cbn [e_cmp_loop cmp_loop].
  apply told_bind; [apply H2|]. intros [] w1 _; cbn [negb]; [apply IH|].
  unfold e_cmp_elt, cmp_elt. destruct op; try first [apply H1|apply H2]; (apply told_bind; [first [apply H1|apply H2]|]; reflexivity).
Qed.
Lemma free_compare {W V K} (lt eq : V -> V -> res bool) (lt' eq' : V -> V -> M W bool) op other (c : core V K) (w : W) :
  answers2 lt' lt -> answers2 eq' eq ->
  fst (e_compare lt' eq' op other c w) = fst (compare lt eq op other c) /\ snd (compare lt eq op other c) = c.
Proof.
  intros H1 H2. unfold e_compare, compare, bind, get. cbv zeta. destruct (_ && _); [split; reflexivity|]. destruct (_ && _); [split; reflexivity|].
  split; [|reflexivity]. unfold liftr. cbn [fst]. apply free_cmp; assumption.
Qed.

Lemma free_sorted_key {W V K} (srt : sorting W) (klt : K -> K -> res bool) (kf : V -> res K) klt' kf' l w : sorts_told srt ->
  answers2 klt' klt -> answers1 kf' kf -> fst (e_sorted_key srt klt' kf' l w) = py_sorted_key klt kf l.
Proof.
  intros H H1 H2. unfold e_sorted_key, py_sorted_key. apply told_bind; [apply free_mapM; exact H2|]. intros ks w1 _.
  apply told_bind; [apply H; intros x y w2; apply H1|]. reflexivity.
Qed.

Ltac calm :=
  repeat first
  [ apply calm_own | apply calm_ret | apply calm_raise | apply calm_liftr
  | apply calm_user; intros; first [apply free_right; assumption|apply free_left; assumption|solve [auto]|match goal with H : answers2 _ _ |- _ => apply H | H : answers1 _ _ |- _ => apply H end]
  | apply calm_bind; [|intros ? ?]
  | progress cbv zeta
  | match goal with
    | |- Calm (if ?b then _ else _) _ _ => destruct b
    | |- Calm (match ?o with Some _ => _ | None => _ end) _ _ => destruct o as [?|]
    | |- Calm (let '(_, _) := ?p in _) _ _ => destruct p
    end ].

(** The methods shared by both classes. *)
Section Shared.
  Context {W S V K : Type}.
  Variable T : vtable (W * S) V K.
  Variable T' : vtable S V K.
  Variable Inv : S -> Prop.
  Hypothesis HT : VtOK T' Inv.
  Hypothesis Hget : forall w s, vt_get T (w, s) = vt_get T' s.
  Hypothesis Hput : forall c w s, vt_put T c (w, s) = (w, vt_put T' c s).
  Hypothesis Hclear : forall s, Calm (vt_clear T) (vt_clear T') s.
  Hypothesis Hdelete : forall p i s, Calm (vt_delete T p i) (vt_delete T' p i) s.
  Hypothesis Hupdate : forall it s, Inv s -> Calm (vt_update T it) (vt_update T' it) s.

  Lemma calm_oncore {A} (m : M (core V K) A) s : Calm (oncore T m) (oncore T' m) s.
  Proof. intros w. exists w. unfold oncore, zoom. rewrite Hget. destruct (m (vt_get T' s)) as [r c]. rewrite Hput. reflexivity. Qed.
  Lemma calm_delitem i s : Calm (delitem_int T i) (delitem_int T' i) s.
  Proof. unfold delitem_int. apply calm_bind; [apply calm_oncore|]. intros p s'. apply Hdelete. Qed.
  Lemma calm_pop i s : Calm (pop T i) (pop T' i) s.
  Proof.
    unfold pop. apply calm_bind; [apply calm_oncore|]. intros c s'.
    repeat first [apply Hdelete|apply calm_oncore|progress calm].
  Qed.
  Lemma inv_read {A} (m : M (core V K) A) s r s' : Inv s -> (exists r' c', m (vt_get T' s) = (r', c') /\ touch (vt_get T' s) c') ->
    oncore T' m s = (r, s') -> Inv s'.
  Proof.
    intros HI (r' & c' & E & Ht) H. destruct (oncore_ok T' Inv HT m s r' c' HI E Ht) as (s2 & E2 & H2 & _). rewrite E2 in H. congruence.
  Qed.
  Lemma inv_slice sl s r s' : Inv s -> oncore T' (getitem_slice sl) s = (r, s') -> Inv s'.
  Proof.
    intros HI. apply inv_read; [exact HI|]. destruct (getitem_slice_ok _ sl (vo_core _ _ HT s HI)) as (c' & E & Ht). eauto.
  Qed.
  Lemma inv_get s r s' : Inv s -> oncore T' get s = (r, s') -> Inv s'.
  Proof. intros HI. apply inv_read; [exact HI|]. eexists _, _. split; [reflexivity|]. apply touch_refl. apply (vo_core _ _ HT s HI). Qed.
  Lemma inv_clear s r s' : Inv s -> vt_clear T' s = (r, s') -> Inv s' /\ vcont T' s' = [].
  Proof. intros HI H. destruct (vo_clear _ _ HT s HI) as (s2 & E & H1 & H2 & _). rewrite E in H. injection H as _ <-. auto. Qed.
  Lemma calm_delslice sl s : Inv s -> Calm (delitem_slice T sl) (delitem_slice T' sl) s.
  Proof.
    intros HI. unfold delitem_slice. apply calm_bind_at; [apply calm_oncore|]. intros c s1 E1. pose proof (inv_get _ _ _ HI E1) as H1.
    apply calm_bind_at; [apply calm_liftr|]. intros [[start stop] step] s2 E2. injection E2 as _ <-. cbv zeta.
    assert (L : forall l s, Calm (forM (delitem_int T) l) (forM (delitem_int T') l) s) by (apply calm_forM; intros; apply calm_delitem).
    destruct (_ && _); [|apply L]. destruct (_ && _); [apply Hclear|]. destruct (_ <=? _)%Z; [|apply L].
    apply calm_bind_at; [apply calm_oncore|]. intros vs s3 E3. pose proof (inv_slice _ _ _ _ H1 E3) as H3.
    eapply calm_bind_at.
    - destruct (_ <? _)%Z; [|apply calm_ret]. apply calm_bind; [apply calm_oncore|]. intros; apply calm_ret.
    - intros vs2 s4 E4. assert (H4 : Inv s4).
      { destruct (_ <? _)%Z.
        - unfold bind in E4. destruct (oncore T' _ s3) as [[more|e] s5] eqn:E5; [|discriminate]. injection E4 as _ <-. exact (inv_slice _ _ _ _ H3 E5).
        - injection E4 as _ <-. exact H3. }
      apply calm_bind_at; [apply Hclear|]. intros u s5 E5. apply Hupdate. apply (inv_clear _ _ _ H4 E5).
  Qed.
  Lemma calm_reset ld s : Inv s -> 1 <= ld -> Calm (reset T ld) (reset T' ld) s.
  Proof.
    intros HI Hld. unfold reset. apply calm_bind_at; [apply calm_oncore|]. intros c s1 E1. pose proof (inv_get _ _ _ HI E1) as H1. cbv zeta.
    apply calm_bind_at; [apply Hclear|]. intros u s2 E2. destruct (inv_clear _ _ _ H1 E2) as [H2 H2'].
    apply calm_bind_at; [apply calm_oncore|]. intros u' s3 E3. apply Hupdate. injection E3 as _ <-. apply (vo_load _ _ HT); assumption.
  Qed.
  Lemma calm_imul n s : Inv s -> Calm (imul T n) (imul T' n) s.
  Proof.
    intros HI. unfold imul. apply calm_bind_at; [apply calm_oncore|]. intros c s1 E1. pose proof (inv_get _ _ _ HI E1) as H1. cbv zeta.
    apply calm_bind_at; [apply Hclear|]. intros u s2 E2. apply Hupdate. apply (inv_clear _ _ _ H1 E2).
  Qed.
End Shared.

Section ListFree.
  Context {W V : Type}.
  Variable srt : sorting W.
  Variables lt eq : V -> V -> res bool.
  Variables lt' eq' : V -> V -> M W bool.
  Hypothesis Hlt : answers2 lt' lt.
  Hypothesis Heq : answers2 eq' eq.
  Variable dflt : nat.
  Hypothesis Hsrt : sorts_told srt.
  Notation SL := (core V V).

  Lemma f_add v (c : SL) : Calm (W:=W) (e_add lt' v) (sl_add lt v) c.
  Proof.
    unfold e_add, sl_add. apply calm_bind_at; [apply (calm_own get)|]. intros c1 s1 E. injection E as <- <-.
    apply calm_bind; [|intros; apply calm_own]. destruct (is_nil _); [apply calm_own|].
    apply calm_bind_at; [apply calm_user; intros; apply (free_right lt lt' Hlt)|]. intros pos s1 E. injection E as _ <-. destruct (pos =? _); [calm|].
    intros w. unfold bind, own, user, zoom, liftr, modifyR. cbn [fst snd]. rewrite updn_insort.
    destruct (getn (lists c) pos) as [l|e]; [|eexists; reflexivity]. cbn [rbind].
    destruct (told _ _ _ (free_right lt lt' Hlt l v w)) as [w1 E1]. rewrite E1. exists w1.
    destruct (bisect_right lt l v) as [i|e]; [|reflexivity]. cbn [rbind]. destruct (updn _ _ _) as [ls|e]; [|reflexivity]. cbn [rbind].
    destruct (sl_expand pos _); reflexivity.
  Qed.
  Lemma f_update it (c : SL) : Calm (W:=W) (e_update srt lt' it) (sl_update lt it) c.
  Proof.
    unfold e_update, sl_update. apply calm_bind; [apply calm_user; intros; apply (Hsrt V lt' lt Hlt)|]. intros vs c1.
    apply calm_bind; [apply (calm_own get)|]. intros c2 c3. destruct (is_nil _); [apply calm_own|]. destruct (_ <=? _).
    - apply calm_bind; [apply calm_own|]. intros _ c4. apply calm_bind; [apply (calm_own get)|]. intros c5 c6.
      apply calm_bind; [apply calm_user; intros; apply (Hsrt V lt' lt Hlt)|]. intros; calm.
    - apply calm_forM. apply f_add.
  Qed.
  Lemma f_rank (bis : list V -> V -> res nat) bis' v (c : SL) : (forall a x (w : W), fst (bis' a x w) = bis a x) ->
    Calm (W:=W) (e_rank bis' v)
      (c <- get ;;
       if is_nil (maxes c) then ret 0
       else pos <- liftr (bis (maxes c) v) ;;
            if pos =? length (maxes c) then ret (len c)
            else l <- liftr (getn (lists c) pos) ;; idx <- liftr (bis l v) ;; loc pos idx) c.
  Proof. intros H. unfold e_rank. repeat first [apply calm_user; intros; apply H|progress calm]. Qed.
  Lemma f_index v a b (c : SL) : Calm (W:=W) (e_index lt' eq' v a b) (sl_index lt eq v a b) c.
  Proof.
    unfold e_index, sl_index. repeat first [apply (f_rank (bisect_right lt) (e_bisect_right lt')); intros; apply (free_right lt lt' Hlt)|progress calm].
  Qed.
  Lemma f_irange mn mx a b r (c : SL) : Calm (W:=W) (e_irange lt' mn mx a b r) (sl_irange lt mn mx a b r) c.
  Proof. unfold e_irange, sl_irange. destruct a, b; calm. Qed.

  Lemma free_step o w (c : SL) : LShape c -> lop_ok o ->
    exists w', e_step srt lt' eq' dflt o (w, c) = (fst (sl_step lt eq dflt o c), (w', snd (sl_step lt eq dflt o c))).
  Proof.
    intros Hs Hok. pose proof (sl_vt_ok lt) as HT.
    assert (U : forall it (s : SL), Calm (W:=W) (e_update srt lt' it) (sl_update lt it) s) by apply f_update.
    destruct o; cbn [e_step sl_step lop_ok] in *; try apply calm_obs.
    - apply f_add.
    - apply U.
    - apply calm_own.
    - unfold e_discard, e_find, sl_discard. calm.
    - unfold e_remove, e_find, sl_remove. calm.
    - unfold e_contains, e_find, sl_contains.
      apply calm_bind; [apply (calm_own get)|]. intros c1 s1. destruct (is_nil _); [apply calm_ret|].
      apply calm_bind; [apply calm_user; intros; apply (free_left lt lt' Hlt)|]. intros p s2. destruct (p =? _); [apply calm_ret|].
      apply calm_bind; [apply calm_own|]. intros l s3.
      apply calm_bind; [apply calm_user; intros; apply (free_left lt lt' Hlt)|]. intros i s4.
      apply calm_bind; [apply calm_own|]. intros x s5. intros w0. unfold bind, user, zoom. cbn [fst snd].
      destruct (told _ _ _ (Heq x v w0)) as [w1 E1]. rewrite E1. exists w1. unfold liftr. cbn [fst snd]. destruct (eq x v); reflexivity.
    - apply calm_own.
    - apply calm_own.
    - eapply calm_delitem; try reflexivity; intros; apply calm_own.
    - eapply calm_delslice; try eassumption; try reflexivity; intros; try apply calm_own. apply U.
    - eapply calm_pop; try reflexivity; intros; apply calm_own.
    - apply calm_own.
    - apply calm_own.
    - apply calm_own.
    - apply f_rank. intros; apply (free_left lt lt' Hlt).
    - apply f_rank. intros; apply (free_right lt lt' Hlt).
    - unfold e_count, sl_count. calm.
    - apply f_index.
    - apply f_irange.
    - apply calm_own.
    - eapply calm_reset; try eassumption; try reflexivity; intros; try apply calm_own. apply U.
    - apply U.
    - eapply calm_imul; try eassumption; try reflexivity; intros; try apply calm_own. apply U.
    - apply (calm_rebind (core_empty dflt) _ _ (fun c => e_new srt lt' dflt (concat (lists c))) (fun c => sl_new lt dflt (concat (lists c))) c w (U (concat (lists c)) _)); reflexivity.
    - apply (calm_rebind (core_empty dflt) _ _ (fun c => e_new srt lt' dflt (contents c ++ it)) (fun c => sl_new lt dflt (contents c ++ it)) c w (U (contents c ++ it) _)); reflexivity.
    - apply (calm_rebind (core_empty dflt) _ _ (fun c => e_new srt lt' dflt (list_mul (contents c) n)) (fun c => sl_new lt dflt (list_mul (contents c) n)) c w (U (list_mul (contents c) n) _)); reflexivity.
    - apply (calm_rebind (core_empty dflt) _ _ (fun c => e_new srt lt' dflt (contents c)) (fun c => sl_new lt dflt (contents c)) c w (U (contents c) _)); reflexivity.
    - intros w0. unfold bind, own, user, zoom, get. cbn [fst snd]. destruct (free_compare lt eq lt' eq' op other c w0 Hlt Heq) as [E1 E2].
      destruct (told _ _ _ E1) as [w1 E3]. rewrite E3, E2. exists w1. reflexivity.
    - apply calm_raise.
  Qed.
End ListFree.

Section KeyFree.
  Context {W V K : Type}.
  Variable srt : sorting W.
  Variables vlt eq : V -> V -> res bool.
  Variables klt keq : K -> K -> res bool.
  Variable kf : V -> res K.
  Variables vlt' eq' : V -> V -> M W bool.
  Variables klt' keq' : K -> K -> M W bool.
  Variable kf' : V -> M W K.
  Hypothesis Hvlt : answers2 vlt' vlt.
  Hypothesis Heq : answers2 eq' eq.
  Hypothesis Hklt : answers2 klt' klt.
  Hypothesis Hkeq : answers2 keq' keq.
  Hypothesis Hkf : answers1 kf' kf.
  Variable dflt : nat.
  Hypothesis Hsrt : sorts_told srt.
  Hypothesis Hd : 1 <= dflt.
  Notation SKL := (skl V K).

  Lemma fk_add v (s : SKL) : Calm (W:=W) (ek_add klt' kf' v) (skl_add klt kf v) s.
  Proof. unfold ek_add, skl_add. calm. Qed.
  Lemma fk_rows rows : forall (s : SKL) kss (w : W), mapR (mapR kf) rows = Ok kss ->
    exists w', forM (fun l => ks <- user (mapM kf' l) ;; own (modify (fun s => set_keys (keys s ++ [ks]) s))) rows (w, s) =
    (Ok tt, (w', mkskl (kc s) (keys s ++ kss) : SKL)).
  Proof.
    induction rows as [|l rows IH]; intros s kss w H; cbn [mapR forM] in *.
    - injection H as <-. rewrite app_nil_r. exists w. destruct s; reflexivity.
    - destruct (mapR kf l) as [ks|e] eqn:E1; [|discriminate]. cbn [rbind] in H. destruct (mapR (mapR kf) rows) as [kss'|e] eqn:E2; [|discriminate].
      injection H as <-. unfold bind at 1 2, user, own, zoom, modify. cbn [fst snd].
      destruct (told _ _ _ (free_mapM kf kf' l w Hkf)) as [w1 E3]. rewrite E3, E1. cbn [fst snd].
      match goal with |- context [forM _ rows (?w0, ?s0)] => destruct (IH s0 kss' w0 eq_refl) as [w2 E4] end. exists w2. etransitivity; [exact E4|]. cbn [kc keys set_keys]. rewrite <- app_assoc. reflexivity.
  Qed.
  Lemma fk_rows_at rows (s : SKL) kss (w : W) : mapR (mapR kf) rows = Ok kss ->
    forM (fun l => ks <- user (mapM kf' l) ;; own (modify (fun s => set_keys (keys s ++ [ks]) s))) rows (w, s) =
    (Ok tt, (fst (snd (forM (fun l => ks <- user (mapM kf' l) ;; own (modify (fun s => set_keys (keys s ++ [ks]) s))) rows (w, s))), mkskl (kc s) (keys s ++ kss) : SKL)).
  Proof. intros H. destruct (fk_rows rows s kss w H) as [w1 E]. rewrite E. reflexivity. Qed.
  Lemma fk_fill values ks ix off n ld (w : W) : mapR kf values = Ok ks -> 1 <= ld ->
    exists w', ek_fill kf' values (w, mkskl (mkcore [] [] ix off n ld) [] : SKL) =
    (fst (skl_fill kf values (mkskl (mkcore [] [] ix off n ld) [])), (w', snd (skl_fill kf values (mkskl (mkcore [] [] ix off n ld) [])))).
  Proof.
    intros Hk Hld. destruct (skl_fill_ok kf values ks ix off ld n Hk Hld) as (s' & E & _). rewrite E.
    unfold skl_fill, modifyR in E. cbn [kc keys load lists maxes app] in E.
    unfold ek_fill, bind at 1, own, zoom, modifyR. cbn [fst snd kc load]. destruct (chunks ld values) as [cs|e]; [|discriminate]. cbn [rbind] in *.
    ev. cbn [fst snd app]. unfold bind at 1, get. cbn [fst snd]. cbn [kc lists].
    destruct (mapR (mapR kf) cs) as [nks|e] eqn:En; [|discriminate]. cbn [rbind] in E.
unfold bind at 1. rewrite (fk_rows_at _ _ _ _ En). cbn [kc keys app fst snd].
    destruct (mapR getlast nks) as [ms|e]; [|discriminate]. cbn [rbind] in *. injection E as <-. eexists. reflexivity.
  Qed.
  Lemma fk_update it (s : SKL) : Shape kf s -> Calm (W:=W) (ek_update srt klt' kf' it) (skl_update klt kf it) s.
  Proof.
    intros HS. assert (Hld : 1 <= load (kc s)) by (destruct HS as (rows & H & _); apply (sh_load _ _ _ H)).
    unfold ek_update, skl_update. apply calm_bind_at; [apply calm_user; intros; apply free_sorted_key; assumption|].
    intros vs s1 E1. injection E1 as E1 <-. apply py_sorted_key_Ok in E1 as [_ (ks & Hks)].
    apply calm_bind_at; [apply (calm_own get)|]. intros s2 s3 E2. injection E2 as <- <-. destruct (is_nil (maxes (kc s))) eqn:Hnil.
    - assert (Hc : contents (kc s) = []).
      { destruct HS as (rows & H & _). rewrite (shape_nil _ _ _ H Hnil) in H. unfold contents. rewrite (sh_lists _ _ _ H). reflexivity. }
      destruct (shape_nil_state kf s HS Hc) as (ix & off & Es & _). rewrite Es. intros w. exact (fk_fill vs ks ix off 0 _ w Hks Hld).
    - destruct (_ <=? _); [|apply calm_forM; apply fk_add].
      apply calm_bind_at; [apply calm_own|]. intros u s2 E2. injection E2 as _ <-.
      apply calm_bind_at; [apply (calm_own get)|]. intros s2 s3 E2. injection E2 as <- <-.
      apply calm_bind_at; [apply calm_user; intros; apply free_sorted_key; assumption|]. intros all s2 E2. injection E2 as E2 <-.
      apply py_sorted_key_Ok in E2 as [_ (ks2 & Hks2)].
      apply calm_bind_at; [apply calm_own|]. intros u2 s2 E2. injection E2 as _ <-. ev. intros w. exact (fk_fill all ks2 [] _ 0 _ w Hks2 Hld).
  Qed.
  Lemma fk_scan fuel (s : SKL) key v : forall p i n (w : W),
    fst (e_scan_loop eq' keq' fuel s key v p i n w) = scan_loop eq keq fuel s key v p i n.
  Proof.
    induction fuel as [|f IH]; intros p i n w; [reflexivity|]. cbn [e_scan_loop scan_loop].
    apply told_bind; [reflexivity|]. intros ks w1 _. apply told_bind; [reflexivity|]. intros k w2 _. apply told_bind; [apply Hkeq|]. intros b w3 _.
    destruct (negb b); [reflexivity|].
    apply told_bind; [reflexivity|]. intros l w4 _. apply told_bind; [reflexivity|]. intros x w5 _. apply told_bind; [apply Heq|]. intros [] w6 _; [reflexivity|].
    cbv zeta. destruct (i + 1 =? n); [|apply IH]. destruct (p + 1 =? _); [reflexivity|]. apply told_bind; [reflexivity|]. intros ks' w7 _. apply IH.
  Qed.
  Lemma fk_count fuel (s : SKL) key v : forall p i n t (w : W),
    fst (e_count_loop eq' keq' fuel s key v p i n t w) = count_loop eq keq fuel s key v p i n t.
  Proof.
    induction fuel as [|f IH]; intros p i n t w; [reflexivity|]. cbn [e_count_loop count_loop].
    apply told_bind; [reflexivity|]. intros ks w1 _. apply told_bind; [reflexivity|]. intros k w2 _. apply told_bind; [apply Hkeq|]. intros b w3 _.
    destruct (negb b); [reflexivity|].
    apply told_bind; [reflexivity|]. intros l w4 _. apply told_bind; [reflexivity|]. intros x w5 _. apply told_bind; [apply Heq|]. intros b2 w6 _.
    cbv zeta. destruct (i + 1 =? n); [|apply IH]. destruct (p + 1 =? _); [reflexivity|]. apply told_bind; [reflexivity|]. intros ks' w7 _. apply IH.
  Qed.
  Lemma fk_find v (s : SKL) : Calm (W:=W) (ek_find eq' klt' keq' kf' v) (skl_find eq klt keq kf v) s.
  Proof. unfold ek_find, skl_find. repeat first [apply calm_user; intros; apply fk_scan|progress calm]. Qed.
  Lemma fk_inner {A} (m : M (core V K) A) s : Calm (W:=W) (inner srt klt' kf' m) (oncore (skl_vt klt kf) m) s.
  Proof. intros w. exists w. unfold inner, oncore, zoom. cbn. destruct (m (kc s)); reflexivity. Qed.
  Lemma fk_index_loop fuel key v a b : forall p i n (s : SKL),
    Calm (W:=W) (e_index_loop srt eq' klt' keq' kf' fuel key v a b p i n) (index_loop eq klt keq kf fuel key v a b p i n) s.
  Proof.
    induction fuel as [|f IH]; intros p i n s; [apply calm_raise|]. cbn [e_index_loop index_loop].
    repeat first [apply IH|apply fk_inner|progress calm].
  Qed.
  Lemma fk_irange_key mn mx a b r (s : SKL) : Calm (W:=W) (ek_irange_key klt' mn mx a b r) (skl_irange_key klt mn mx a b r) s.
  Proof. unfold ek_irange_key, skl_irange_key. destruct a, b; calm. Qed.
  Lemma fk_left key (s : SKL) : Calm (W:=W) (ek_rank_key srt klt' kf' (e_bisect_left klt') key) (skl_bisect_key_left klt kf key) s.
  Proof. unfold ek_rank_key, skl_bisect_key_left. repeat first [apply fk_inner|progress calm]. Qed.
  Lemma fk_right key (s : SKL) : Calm (W:=W) (ek_rank_key srt klt' kf' (e_bisect_right klt') key) (skl_bisect_key_right klt kf key) s.
  Proof. unfold ek_rank_key, skl_bisect_key_right. repeat first [apply fk_inner|progress calm]. Qed.

  Lemma free_kstep o w (s : SKL) : Shape kf s -> kop_ok o ->
    exists w', ek_step srt vlt' eq' klt' keq' kf' dflt o (w, s) =
    (fst (skl_step vlt eq klt keq kf dflt o s), (w', snd (skl_step vlt eq klt keq kf dflt o s))).
  Proof.
    intros Hs Hok. pose proof (skl_vt_ok klt kf) as HT.
    assert (HE : Shape kf (skl_empty dflt : SKL)) by (apply shape_empty; exact Hd).
    destruct o as [o|k|k|mn mx a b r]; cbn [ek_step skl_step];
      [|apply calm_obs; apply fk_left|apply calm_obs; apply fk_right|apply calm_obs; apply fk_irange_key].
    destruct o; cbn [ek_lstep skl_lstep kop_ok lop_ok] in *; try apply calm_obs.
    - apply fk_add.
    - apply fk_update; exact Hs.
    - apply calm_own.
    - unfold ek_discard, skl_discard. apply calm_bind; [apply fk_find|]. intros; calm.
    - unfold ek_remove, skl_remove. apply calm_bind; [apply fk_find|]. intros; calm.
    - unfold ek_contains, skl_contains. apply calm_bind; [apply fk_find|]. intros; calm.
    - apply fk_inner.
    - apply fk_inner.
    - eapply calm_delitem; try reflexivity; intros; apply calm_own.
    - eapply calm_delslice; try eassumption; try reflexivity; intros; try apply calm_own. apply fk_update; assumption.
    - eapply calm_pop; try reflexivity; intros; apply calm_own.
    - apply fk_inner.
    - apply fk_inner.
    - apply fk_inner.
    - unfold ek_rank, skl_bisect_left. apply calm_bind; [apply calm_user; intros; apply Hkf|]. intros; apply fk_left.
    - unfold ek_rank, skl_bisect_right. apply calm_bind; [apply calm_user; intros; apply Hkf|]. intros; apply fk_right.
    - unfold ek_count, skl_count. repeat first [apply calm_user; intros; apply fk_count|progress calm].
    - unfold ek_index, skl_index. repeat first [apply fk_index_loop|apply fk_inner|progress calm].
    - unfold ek_irange, skl_irange.
      assert (KO : forall o (s : SKL), Calm (W:=W) (user (e_key_opt kf' o)) (liftr (key_opt kf o)) s).
      { intros o0 s0. apply calm_user. intros w0. destruct o0 as [v|]; [|reflexivity]. unfold e_key_opt, key_opt. apply told_bind; [apply Hkf|]. reflexivity. }
      apply calm_bind; [apply KO|]. intros. apply calm_bind; [apply KO|]. intros. apply fk_irange_key.
    - apply fk_inner.
    - eapply calm_reset; try eassumption; try reflexivity; intros; try apply calm_own. apply fk_update; assumption.
    - apply fk_update; exact Hs.
    - eapply calm_imul; try eassumption; try reflexivity; intros; try apply calm_own. apply fk_update; assumption.
    - apply (calm_rebind (skl_empty dflt) _ _ (fun s => ek_new srt klt' kf' dflt (concat (lists (kc s)))) (fun s => skl_new klt kf dflt (concat (lists (kc s)))) s w (fk_update (concat (lists (kc s))) _ HE)); reflexivity.
    - apply (calm_rebind (skl_empty dflt) _ _ (fun s => ek_new srt klt' kf' dflt (contents (kc s) ++ it)) (fun s => skl_new klt kf dflt (contents (kc s) ++ it)) s w (fk_update (contents (kc s) ++ it) _ HE)); reflexivity.
    - apply (calm_rebind (skl_empty dflt) _ _ (fun s => ek_new srt klt' kf' dflt (list_mul (contents (kc s)) n)) (fun s => skl_new klt kf dflt (list_mul (contents (kc s)) n)) s w (fk_update (list_mul (contents (kc s)) n) _ HE)); reflexivity.
    - apply (calm_rebind (skl_empty dflt) _ _ (fun s => ek_new srt klt' kf' dflt (contents (kc s))) (fun s => skl_new klt kf dflt (contents (kc s))) s w (fk_update (contents (kc s)) _ HE)); reflexivity.
    - intros w0. unfold bind, own, user, oncore, zoom, get. cbn [fst snd skl_vt vt_get vt_put].
      destruct (free_compare vlt eq vlt' eq' op other (kc s) w0 Hvlt Heq) as [E1 E2]. destruct (told _ _ _ E1) as [w1 E3]. rewrite E3. exists w1. destruct (compare vlt eq op other (kc s)) as [r c]. cbn [fst snd] in *.
      subst c. destruct s; reflexivity.
    - apply calm_raise.
  Qed.
End KeyFree.

(** * Without effects, the methods of ModelEffect.v are those of Model.v *)
From Verif Require Import PyBase Model Spec History BaseFacts SpecFacts SliceFacts IndexFacts Shape CoreFacts VtFacts
  KeyFacts KeyLook ListSim FaultFacts FaultSpec ModelEffect EffectSpec.
From Coq Require Import Sorting.Permutation.
Local Unset Implicit Arguments.

Section Calm.
  Context {W S : Type}.
  (** [m] does in state [s] what [m'] does, and nothing to the world. *)
  Definition Calm {A} (m : M (W * S) A) (m' : M S A) (s : S) : Prop := forall w, m (w, s) = (fst (m' s), (w, snd (m' s))).
  Lemma calm_own {A} (m : M S A) s : Calm (own m) m s.
  Proof. intros w. unfold own, zoom. cbn. destruct (m s); reflexivity. Qed.
  Lemma calm_user {A} (m : M W A) r s : (forall w, m w = (r, w)) -> Calm (user m) (liftr r) s.
  Proof. intros H w. unfold user, zoom. cbn. rewrite H. reflexivity. Qed.
  Lemma calm_ret {A} (a : A) s : Calm (ret a) (ret a) s.
  Proof. intros w. reflexivity. Qed.
  Lemma calm_raise {A} e s : Calm (@raise _ A e) (raise e) s.
  Proof. intros w. reflexivity. Qed.
  Lemma calm_liftr {A} (r : res A) s : Calm (liftr r) (liftr r) s.
  Proof. intros w. reflexivity. Qed.
  Lemma calm_bind_at {A B} (m : M (W * S) A) m' (k : A -> M (W * S) B) k' s : Calm m m' s ->
    (forall a s', m' s = (Ok a, s') -> Calm (k a) (k' a) s') -> Calm (bind m k) (bind m' k') s.
  Proof.
    intros H HK w. unfold bind. rewrite H. destruct (m' s) as [[a|e] s'] eqn:E; cbn [fst snd]; [apply HK; reflexivity|reflexivity].
  Qed.
  Lemma calm_bind {A B} (m : M (W * S) A) m' (k : A -> M (W * S) B) k' s : Calm m m' s ->
    (forall a s', Calm (k a) (k' a) s') -> Calm (bind m k) (bind m' k') s.
  Proof. intros H HK. apply calm_bind_at; auto. Qed.
  Lemma calm_forM {A} (f : A -> M (W * S) unit) f' : (forall a s, Calm (f a) (f' a) s) -> forall l s, Calm (forM f l) (forM f' l) s.
  Proof.
    intros H l. induction l as [|a l IH]; intros s; [apply calm_ret|]. cbn [forM]. apply calm_bind; auto.
  Qed.
  Lemma calm_obs {V A} (inj : A -> out V) (m : M (W * S) A) m' s w : Calm m m' s ->
    observe inj m (w, s) = (fst (observe inj m' s), (w, snd (observe inj m' s))).
  Proof. intros H. unfold observe. rewrite H. destruct (m' s) as [[a|e] s']; reflexivity. Qed.
  Lemma calm_rebind {V} (empty : S) (m : M (W * S) unit) (m' : M S unit) (f : S -> M (W * S) S) (f' : S -> res S) s w : Calm m m' empty ->
    f s = e_fresh empty m -> f' s = match m' empty with (Ok _, c) => Ok c | (Err e, _) => Err e end ->
    @e_rebind W S V (c <- own get ;; f c) (w, s) =
    (fst (@rebind S V (c <- get ;; liftr (f' c)) s), (w, snd (@rebind S V (c <- get ;; liftr (f' c)) s))).
  Proof.
    intros H E E'. unfold e_rebind, rebind, bind, own, zoom, get, liftr. cbn [fst snd]. rewrite E, E'. unfold e_fresh. cbn [fst snd]. rewrite H.
    destruct (m' empty) as [[u|e] c']; reflexivity.
  Qed.
End Calm.

Definition free2 {W A} (f : A -> A -> res bool) (x y : A) : M W bool := liftr (f x y).
Definition free1 {W A B} (f : A -> res B) (x : A) : M W B := liftr (f x).

Section Pieces.
  Context {W A : Type}.
  Variable lt : A -> A -> res bool.
  Lemma free_right_loop fuel : forall a x lo hi (w : W), e_bisect_right_loop (free2 lt) fuel a x lo hi w = (bisect_right_loop lt fuel a x lo hi, w).
  Proof.
    induction fuel as [|f IH]; intros a x lo hi w; [reflexivity|]. cbn [e_bisect_right_loop bisect_right_loop].
    destruct (lo <? hi); [|reflexivity]. unfold bind, liftr, free2. destruct (getn a _) as [y|e]; [|reflexivity]. cbn [rbind].
    unfold liftr. destruct (lt x y) as [[]|e]; [apply IH|apply IH|reflexivity].
  Qed.
  Lemma free_left_loop fuel : forall a x lo hi (w : W), e_bisect_left_loop (free2 lt) fuel a x lo hi w = (bisect_left_loop lt fuel a x lo hi, w).
  Proof.
    induction fuel as [|f IH]; intros a x lo hi w; [reflexivity|]. cbn [e_bisect_left_loop bisect_left_loop].
    destruct (lo <? hi); [|reflexivity]. unfold bind, liftr, free2. destruct (getn a _) as [y|e]; [|reflexivity]. cbn [rbind].
    unfold liftr. destruct (lt y x) as [[]|e]; [apply IH|apply IH|reflexivity].
  Qed.
  Lemma free_right a x (w : W) : e_bisect_right (free2 lt) a x w = (bisect_right lt a x, w).
  Proof. apply free_right_loop. Qed.
  Lemma free_left a x (w : W) : e_bisect_left (free2 lt) a x w = (bisect_left lt a x, w).
  Proof. apply free_left_loop. Qed.
  Lemma free_mapM {B} (f : A -> res B) l (w : W) : mapM (free1 f) l w = (mapR f l, w).
  Proof.
    revert w. induction l as [|a l IH]; intros w; [reflexivity|]. cbn [mapM mapR]. unfold bind, free1 at 1, liftr.
    destruct (f a) as [b|e]; [|reflexivity]. cbn [rbind]. rewrite (IH w). destruct (mapR f l); reflexivity.
  Qed.
End Pieces.
Lemma free_cmp {W V} (lt eq : V -> V -> res bool) op n m l : forall o (w : W), e_cmp_loop (free2 lt) (free2 eq) op n m l o w = (cmp_loop lt eq op n m l o, w).
Proof.
  induction l as [|a l IH]; intros o w; [reflexivity|]. destruct o as [|b o]; [reflexivity|]. cbn [e_cmp_loop cmp_loop].
  unfold bind, free2 at 1, liftr. destruct (eq a b) as [[]|e]; cbn [rbind]; [apply IH| |reflexivity].
  unfold e_cmp_elt, cmp_elt, free2, bind, liftr. destruct op; try reflexivity.
  - destruct (eq a b); reflexivity.
  - destruct (lt b a); reflexivity.
  - destruct (lt a b); reflexivity.
Qed.
Lemma free_compare {W V K} (lt eq : V -> V -> res bool) op other (c : core V K) (w : W) :
  e_compare (free2 lt) (free2 eq) op other c w = (fst (compare lt eq op other c), w) /\ snd (compare lt eq op other c) = c.
Proof.
  unfold e_compare, compare, bind, get. cbv zeta. destruct (_ && _); [split; reflexivity|]. destruct (_ && _); [split; reflexivity|].
  rewrite free_cmp. split; reflexivity.
Qed.

(** A sorting algorithm that sorts as Model.v does when comparisons have no effect. *)
Lemma free_sorted_key {W V K} (srt : sorting W) (klt : K -> K -> res bool) (kf : V -> res K) l w : sorts_as srt ->
  e_sorted_key srt (free2 klt) (free1 kf) l w = (py_sorted_key klt kf l, w).
Proof.
  intros H. unfold e_sorted_key, py_sorted_key, bind. rewrite free_mapM. destruct (mapR kf l) as [ks|e]; [|reflexivity]. cbn [rbind].
  unfold free2. rewrite (H (K * V)%type (fun p q => klt (fst p) (fst q))). destruct (py_sorted _ _); reflexivity.
Qed.

Ltac calm :=
  repeat first
  [ apply calm_own | apply calm_ret | apply calm_raise | apply calm_liftr
  | apply calm_user; intros; first [apply free_right|apply free_left|reflexivity]
  | apply calm_bind; [|intros ? ?]
  | progress cbv zeta
  | match goal with
    | |- Calm (if ?b then _ else _) _ _ => destruct b
    | |- Calm (match ?o with Some _ => _ | None => _ end) _ _ => destruct o as [?|]
    | |- Calm (let '(_, _) := ?p in _) _ _ => destruct p
    end ].

(** The methods shared by both classes. *)
Section Shared.
  Context {W S V K : Type}.
  Variable T : vtable (W * S) V K.
  Variable T' : vtable S V K.
  Variable Inv : S -> Prop.
  Hypothesis HT : VtOK T' Inv.
  Hypothesis Hget : forall w s, vt_get T (w, s) = vt_get T' s.
  Hypothesis Hput : forall c w s, vt_put T c (w, s) = (w, vt_put T' c s).
  Hypothesis Hclear : forall s, Calm (vt_clear T) (vt_clear T') s.
  Hypothesis Hdelete : forall p i s, Calm (vt_delete T p i) (vt_delete T' p i) s.
  Hypothesis Hupdate : forall it s, Inv s -> Calm (vt_update T it) (vt_update T' it) s.

  Lemma calm_oncore {A} (m : M (core V K) A) s : Calm (oncore T m) (oncore T' m) s.
  Proof. intros w. unfold oncore, zoom. rewrite Hget. destruct (m (vt_get T' s)) as [r c]. rewrite Hput. reflexivity. Qed.
  Lemma calm_delitem i s : Calm (delitem_int T i) (delitem_int T' i) s.
  Proof. unfold delitem_int. apply calm_bind; [apply calm_oncore|]. intros p s'. apply Hdelete. Qed.
  Lemma calm_pop i s : Calm (pop T i) (pop T' i) s.
  Proof.
    unfold pop. apply calm_bind; [apply calm_oncore|]. intros c s'.
    repeat first [apply Hdelete|apply calm_oncore|progress calm].
  Qed.
  Lemma inv_read {A} (m : M (core V K) A) s r s' : Inv s -> (exists r' c', m (vt_get T' s) = (r', c') /\ touch (vt_get T' s) c') ->
    oncore T' m s = (r, s') -> Inv s'.
  Proof.
    intros HI (r' & c' & E & Ht) H. destruct (oncore_ok T' Inv HT m s r' c' HI E Ht) as (s2 & E2 & H2 & _). rewrite E2 in H. congruence.
  Qed.
  Lemma inv_slice sl s r s' : Inv s -> oncore T' (getitem_slice sl) s = (r, s') -> Inv s'.
  Proof.
    intros HI. apply inv_read; [exact HI|]. destruct (getitem_slice_ok _ sl (vo_core _ _ HT s HI)) as (c' & E & Ht). eauto.
  Qed.
  Lemma inv_get s r s' : Inv s -> oncore T' get s = (r, s') -> Inv s'.
  Proof. intros HI. apply inv_read; [exact HI|]. eexists _, _. split; [reflexivity|]. apply touch_refl. apply (vo_core _ _ HT s HI). Qed.
  Lemma inv_clear s r s' : Inv s -> vt_clear T' s = (r, s') -> Inv s' /\ vcont T' s' = [].
  Proof. intros HI H. destruct (vo_clear _ _ HT s HI) as (s2 & E & H1 & H2 & _). rewrite E in H. injection H as _ <-. auto. Qed.
  Lemma calm_delslice sl s : Inv s -> Calm (delitem_slice T sl) (delitem_slice T' sl) s.
  Proof.
    intros HI. unfold delitem_slice. apply calm_bind_at; [apply calm_oncore|]. intros c s1 E1. pose proof (inv_get _ _ _ HI E1) as H1.
    apply calm_bind_at; [apply calm_liftr|]. intros [[start stop] step] s2 E2. injection E2 as _ <-. cbv zeta.
    assert (L : forall l s, Calm (forM (delitem_int T) l) (forM (delitem_int T') l) s) by (apply calm_forM; intros; apply calm_delitem).
    destruct (_ && _); [|apply L]. destruct (_ && _); [apply Hclear|]. destruct (_ <=? _)%Z; [|apply L].
    apply calm_bind_at; [apply calm_oncore|]. intros vs s3 E3. pose proof (inv_slice _ _ _ _ H1 E3) as H3.
    eapply calm_bind_at.
    - destruct (_ <? _)%Z; [|apply calm_ret]. apply calm_bind; [apply calm_oncore|]. intros; apply calm_ret.
    - intros vs2 s4 E4. assert (H4 : Inv s4).
      { destruct (_ <? _)%Z.
        - unfold bind in E4. destruct (oncore T' _ s3) as [[more|e] s5] eqn:E5; [|discriminate]. injection E4 as _ <-. exact (inv_slice _ _ _ _ H3 E5).
        - injection E4 as _ <-. exact H3. }
      apply calm_bind_at; [apply Hclear|]. intros u s5 E5. apply Hupdate. apply (inv_clear _ _ _ H4 E5).
  Qed.
  Lemma calm_reset ld s : Inv s -> 1 <= ld -> Calm (reset T ld) (reset T' ld) s.
  Proof.
    intros HI Hld. unfold reset. apply calm_bind_at; [apply calm_oncore|]. intros c s1 E1. pose proof (inv_get _ _ _ HI E1) as H1. cbv zeta.
    apply calm_bind_at; [apply Hclear|]. intros u s2 E2. destruct (inv_clear _ _ _ H1 E2) as [H2 H2'].
    apply calm_bind_at; [apply calm_oncore|]. intros u' s3 E3. apply Hupdate. injection E3 as _ <-. apply (vo_load _ _ HT); assumption.
  Qed.
  Lemma calm_imul n s : Inv s -> Calm (imul T n) (imul T' n) s.
  Proof.
    intros HI. unfold imul. apply calm_bind_at; [apply calm_oncore|]. intros c s1 E1. pose proof (inv_get _ _ _ HI E1) as H1. cbv zeta.
    apply calm_bind_at; [apply Hclear|]. intros u s2 E2. apply Hupdate. apply (inv_clear _ _ _ H1 E2).
  Qed.
End Shared.

Section ListFree.
  Context {W V : Type}.
  Variable srt : sorting W.
  Variables lt eq : V -> V -> res bool.
  Variable dflt : nat.
  Hypothesis Hsrt : sorts_as srt.
  Notation SL := (core V V).

  Lemma f_add v (c : SL) : Calm (W:=W) (e_add (free2 lt) v) (sl_add lt v) c.
  Proof.
    unfold e_add, sl_add. apply calm_bind_at; [apply (calm_own get)|]. intros c1 s1 E. injection E as <- <-.
    apply calm_bind; [|intros; apply calm_own]. destruct (is_nil _); [apply calm_own|].
    apply calm_bind_at; [apply calm_user; intros; apply free_right|]. intros pos s1 E. injection E as _ <-. destruct (pos =? _); [calm|].
    intros w. unfold bind, own, user, zoom, liftr, modifyR. cbn [fst snd]. rewrite updn_insort.
    destruct (getn (lists c) pos) as [l|e]; [|reflexivity]. cbn [rbind]. rewrite free_right.
    destruct (bisect_right lt l v) as [i|e]; [|reflexivity]. cbn [rbind]. destruct (updn _ _ _) as [ls|e]; [|reflexivity]. cbn [rbind].
    destruct (sl_expand pos _); reflexivity.
  Qed.
  Lemma f_update it (c : SL) : Calm (W:=W) (e_update srt (free2 lt) it) (sl_update lt it) c.
  Proof.
    unfold e_update, sl_update. apply calm_bind; [apply calm_user; intros; apply Hsrt|]. intros vs c1.
    apply calm_bind; [apply (calm_own get)|]. intros c2 c3. destruct (is_nil _); [apply calm_own|]. destruct (_ <=? _).
    - apply calm_bind; [apply calm_own|]. intros _ c4. apply calm_bind; [apply (calm_own get)|]. intros c5 c6.
      apply calm_bind; [apply calm_user; intros; apply Hsrt|]. intros; calm.
    - apply calm_forM. apply f_add.
  Qed.
  Lemma f_rank (bis : list V -> V -> res nat) bis' v (c : SL) : (forall a x (w : W), bis' a x w = (bis a x, w)) ->
    Calm (W:=W) (e_rank bis' v)
      (c <- get ;;
       if is_nil (maxes c) then ret 0
       else pos <- liftr (bis (maxes c) v) ;;
            if pos =? length (maxes c) then ret (len c)
            else l <- liftr (getn (lists c) pos) ;; idx <- liftr (bis l v) ;; loc pos idx) c.
  Proof. intros H. unfold e_rank. repeat first [apply calm_user; intros; apply H|progress calm]. Qed.
  Lemma f_index v a b (c : SL) : Calm (W:=W) (e_index (free2 lt) (free2 eq) v a b) (sl_index lt eq v a b) c.
  Proof.
    unfold e_index, sl_index. repeat first [apply (f_rank (bisect_right lt) (e_bisect_right (free2 lt))); intros; apply free_right|progress calm].
  Qed.
  Lemma f_irange mn mx a b r (c : SL) : Calm (W:=W) (e_irange (free2 lt) mn mx a b r) (sl_irange lt mn mx a b r) c.
  Proof. unfold e_irange, sl_irange. destruct a, b; calm. Qed.

  Lemma free_step o w (c : SL) : LShape c -> lop_ok o ->
    e_step srt (free2 lt) (free2 eq) dflt o (w, c) = (fst (sl_step lt eq dflt o c), (w, snd (sl_step lt eq dflt o c))).
  Proof.
    intros Hs Hok. pose proof (sl_vt_ok lt) as HT.
    assert (U : forall it (s : SL), Calm (W:=W) (e_update srt (free2 lt) it) (sl_update lt it) s) by apply f_update.
    destruct o; cbn [e_step sl_step lop_ok] in *; try apply calm_obs.
    - apply f_add.
    - apply U.
    - apply calm_own.
    - unfold e_discard, e_find, sl_discard. calm.
    - unfold e_remove, e_find, sl_remove. calm.
    - unfold e_contains, e_find, sl_contains. intros w0. unfold bind, own, user, zoom, liftr, get, ret. cbn [fst snd].
      destruct (is_nil _); [reflexivity|]. cbn [fst snd]. rewrite free_left. destruct (bisect_left _ _ _) as [p|e]; [|reflexivity].
      destruct (p =? _); [reflexivity|]. cbn [fst snd]. destruct (getn _ _) as [l|e]; [|reflexivity]. cbn [fst snd]. rewrite free_left.
      destruct (bisect_left _ _ _) as [i|e]; [|reflexivity]. cbn [fst snd]. destruct (getn _ _) as [x|e]; [|reflexivity]. cbn [fst snd].
      unfold free2, liftr. destruct (eq x v); reflexivity.
    - apply calm_own.
    - apply calm_own.
    - eapply calm_delitem; try reflexivity; intros; apply calm_own.
    - eapply calm_delslice; try eassumption; try reflexivity; intros; try apply calm_own. apply U.
    - eapply calm_pop; try reflexivity; intros; apply calm_own.
    - apply calm_own.
    - apply calm_own.
    - apply calm_own.
    - apply f_rank. intros; apply free_left.
    - apply f_rank. intros; apply free_right.
    - unfold e_count, sl_count. calm.
    - apply f_index.
    - apply f_irange.
    - apply calm_own.
    - eapply calm_reset; try eassumption; try reflexivity; intros; try apply calm_own. apply U.
    - apply U.
    - eapply calm_imul; try eassumption; try reflexivity; intros; try apply calm_own. apply U.
    - apply (calm_rebind (core_empty dflt) _ _ (fun c => e_new srt (free2 lt) dflt (concat (lists c))) (fun c => sl_new lt dflt (concat (lists c))) c w (U (concat (lists c)) _)); reflexivity.
    - apply (calm_rebind (core_empty dflt) _ _ (fun c => e_new srt (free2 lt) dflt (contents c ++ it)) (fun c => sl_new lt dflt (contents c ++ it)) c w (U (contents c ++ it) _)); reflexivity.
    - apply (calm_rebind (core_empty dflt) _ _ (fun c => e_new srt (free2 lt) dflt (list_mul (contents c) n)) (fun c => sl_new lt dflt (list_mul (contents c) n)) c w (U (list_mul (contents c) n) _)); reflexivity.
    - apply (calm_rebind (core_empty dflt) _ _ (fun c => e_new srt (free2 lt) dflt (contents c)) (fun c => sl_new lt dflt (contents c)) c w (U (contents c) _)); reflexivity.
    - intros w0. unfold bind, own, user, zoom, get. cbn [fst snd]. destruct (free_compare lt eq op other c w0) as [E1 E2]. rewrite E1, E2. reflexivity.
    - apply calm_raise.
  Qed.
End ListFree.

Section KeyFree.
  Context {W V K : Type}.
  Variable srt : sorting W.
  Variables vlt eq : V -> V -> res bool.
  Variables klt keq : K -> K -> res bool.
  Variable kf : V -> res K.
  Variable dflt : nat.
  Hypothesis Hsrt : sorts_as srt.
  Hypothesis Hd : 1 <= dflt.
  Notation SKL := (skl V K).

  Lemma fk_add v (s : SKL) : Calm (W:=W) (ek_add (free2 klt) (free1 kf) v) (skl_add klt kf v) s.
  Proof. unfold ek_add, skl_add. calm. Qed.
  Lemma fk_rows rows : forall (s : SKL) kss (w : W), mapR (mapR kf) rows = Ok kss ->
    forM (fun l => ks <- user (mapM (free1 kf) l) ;; own (modify (fun s => set_keys (keys s ++ [ks]) s))) rows (w, s) =
    (Ok tt, (w, mkskl (kc s) (keys s ++ kss) : SKL)).
  Proof.
    induction rows as [|l rows IH]; intros s kss w H; cbn [mapR forM] in *.
    - injection H as <-. rewrite app_nil_r. destruct s; reflexivity.
    - destruct (mapR kf l) as [ks|e] eqn:E1; [|discriminate]. cbn [rbind] in H. destruct (mapR (mapR kf) rows) as [kss'|e] eqn:E2; [|discriminate].
      injection H as <-. unfold bind at 1 2, user, own, zoom, modify. cbn [fst snd]. rewrite free_mapM, E1. cbn [fst snd].
      rewrite (IH _ kss' w eq_refl). cbn [kc keys set_keys]. rewrite <- app_assoc. reflexivity.
  Qed.
  Lemma fk_fill values ks ix off n ld (w : W) : mapR kf values = Ok ks -> 1 <= ld ->
    ek_fill (free1 kf) values (w, mkskl (mkcore [] [] ix off n ld) [] : SKL) =
    (fst (skl_fill kf values (mkskl (mkcore [] [] ix off n ld) [])), (w, snd (skl_fill kf values (mkskl (mkcore [] [] ix off n ld) [])))).
  Proof.
    intros Hk Hld. destruct (skl_fill_ok kf values ks ix off ld n Hk Hld) as (s' & E & _). rewrite E.
    unfold skl_fill, modifyR in E. cbn [kc keys load lists maxes app] in E.
    unfold ek_fill, bind at 1, own, zoom, modifyR. cbn [fst snd kc load]. destruct (chunks ld values) as [cs|e]; [|discriminate]. cbn [rbind] in *.
    ev. cbn [fst snd app]. unfold bind at 1, get. cbn [fst snd]. cbn [kc lists].
    destruct (mapR (mapR kf) cs) as [nks|e] eqn:En; [|discriminate]. cbn [rbind] in E.
    unfold bind at 1. rewrite (fk_rows _ _ _ _ En). cbn [kc keys app fst snd].
    destruct (mapR getlast nks) as [ms|e]; [|discriminate]. cbn [rbind] in *. injection E as <-. reflexivity.
  Qed.
  Lemma fk_update it (s : SKL) : Shape kf s -> Calm (W:=W) (ek_update srt (free2 klt) (free1 kf) it) (skl_update klt kf it) s.
  Proof.
    intros HS. assert (Hld : 1 <= load (kc s)) by (destruct HS as (rows & H & _); apply (sh_load _ _ _ H)).
    unfold ek_update, skl_update. apply calm_bind_at; [apply calm_user; intros; apply free_sorted_key; exact Hsrt|].
    intros vs s1 E1. injection E1 as E1 <-. apply py_sorted_key_Ok in E1 as [_ (ks & Hks)].
    apply calm_bind_at; [apply (calm_own get)|]. intros s2 s3 E2. injection E2 as <- <-. destruct (is_nil (maxes (kc s))) eqn:Hnil.
    - assert (Hc : contents (kc s) = []).
      { destruct HS as (rows & H & _). rewrite (shape_nil _ _ _ H Hnil) in H. unfold contents. rewrite (sh_lists _ _ _ H). reflexivity. }
      destruct (shape_nil_state kf s HS Hc) as (ix & off & Es & _). rewrite Es. intros w. exact (fk_fill vs ks ix off 0 _ w Hks Hld).
    - destruct (_ <=? _); [|apply calm_forM; apply fk_add].
      apply calm_bind_at; [apply calm_own|]. intros u s2 E2. injection E2 as _ <-.
      apply calm_bind_at; [apply (calm_own get)|]. intros s2 s3 E2. injection E2 as <- <-.
      apply calm_bind_at; [apply calm_user; intros; apply free_sorted_key; exact Hsrt|]. intros all s2 E2. injection E2 as E2 <-.
      apply py_sorted_key_Ok in E2 as [_ (ks2 & Hks2)].
      apply calm_bind_at; [apply calm_own|]. intros u2 s2 E2. injection E2 as _ <-. ev. intros w. exact (fk_fill all ks2 [] _ 0 _ w Hks2 Hld).
  Qed.
  Lemma fk_scan fuel (s : SKL) key v : forall p i n (w : W),
    e_scan_loop (free2 eq) (free2 keq) fuel s key v p i n w = (scan_loop eq keq fuel s key v p i n, w).
  Proof.
    induction fuel as [|f IH]; intros p i n w; [reflexivity|]. cbn [e_scan_loop scan_loop]. unfold bind, liftr, ret, free2, liftr.
    destruct (getn (keys s) p) as [ks|e]; [|reflexivity]. cbn [rbind]. destruct (getn ks i) as [k|e]; [|reflexivity]. cbn [rbind].
    destruct (keq k key) as [b|e]; [|reflexivity]. cbn [rbind]. destruct (negb b); [reflexivity|].
    destruct (getn (lists (kc s)) p) as [l|e]; [|reflexivity]. cbn [rbind]. destruct (getn l i) as [x|e]; [|reflexivity]. cbn [rbind].
    destruct (eq x v) as [[]|e]; [reflexivity| |reflexivity]. cbn [rbind]. cbv zeta. destruct (i + 1 =? n); [|apply IH].
    destruct (p + 1 =? _); [reflexivity|]. destruct (getn (keys s) (p + 1)) as [ks'|e]; [|reflexivity]. cbn [rbind]. apply IH.
  Qed.
  Lemma fk_count fuel (s : SKL) key v : forall p i n t (w : W),
    e_count_loop (free2 eq) (free2 keq) fuel s key v p i n t w = (count_loop eq keq fuel s key v p i n t, w).
  Proof.
    induction fuel as [|f IH]; intros p i n t w; [reflexivity|]. cbn [e_count_loop count_loop]. unfold bind, liftr, ret, free2, liftr.
    destruct (getn (keys s) p) as [ks|e]; [|reflexivity]. cbn [rbind]. destruct (getn ks i) as [k|e]; [|reflexivity]. cbn [rbind].
    destruct (keq k key) as [b|e]; [|reflexivity]. cbn [rbind]. destruct (negb b); [reflexivity|].
    destruct (getn (lists (kc s)) p) as [l|e]; [|reflexivity]. cbn [rbind]. destruct (getn l i) as [x|e]; [|reflexivity]. cbn [rbind].
    destruct (eq x v) as [b2|e]; [|reflexivity]. cbn [rbind]. cbv zeta. destruct (i + 1 =? n); [|apply IH].
    destruct (p + 1 =? _); [reflexivity|]. destruct (getn (keys s) (p + 1)) as [ks'|e]; [|reflexivity]. cbn [rbind]. apply IH.
  Qed.
  Lemma fk_find v (s : SKL) : Calm (W:=W) (ek_find (free2 eq) (free2 klt) (free2 keq) (free1 kf) v) (skl_find eq klt keq kf v) s.
  Proof. unfold ek_find, skl_find. repeat first [apply calm_user; intros; apply fk_scan|progress calm]. Qed.
  Lemma fk_inner {A} (m : M (core V K) A) s : Calm (W:=W) (inner srt (free2 klt) (free1 kf) m) (oncore (skl_vt klt kf) m) s.
  Proof. intros w. unfold inner, oncore, zoom. cbn. destruct (m (kc s)); reflexivity. Qed.
  Lemma fk_index_loop fuel key v a b : forall p i n (s : SKL),
    Calm (W:=W) (e_index_loop srt (free2 eq) (free2 klt) (free2 keq) (free1 kf) fuel key v a b p i n) (index_loop eq klt keq kf fuel key v a b p i n) s.
  Proof.
    induction fuel as [|f IH]; intros p i n s; [apply calm_raise|]. cbn [e_index_loop index_loop].
    repeat first [apply IH|apply fk_inner|progress calm].
  Qed.
  Lemma fk_irange_key mn mx a b r (s : SKL) : Calm (W:=W) (ek_irange_key (free2 klt) mn mx a b r) (skl_irange_key klt mn mx a b r) s.
  Proof. unfold ek_irange_key, skl_irange_key. destruct a, b; calm. Qed.
  Lemma fk_left key (s : SKL) : Calm (W:=W) (ek_rank_key srt (free2 klt) (free1 kf) (e_bisect_left (free2 klt)) key) (skl_bisect_key_left klt kf key) s.
  Proof. unfold ek_rank_key, skl_bisect_key_left. repeat first [apply fk_inner|progress calm]. Qed.
  Lemma fk_right key (s : SKL) : Calm (W:=W) (ek_rank_key srt (free2 klt) (free1 kf) (e_bisect_right (free2 klt)) key) (skl_bisect_key_right klt kf key) s.
  Proof. unfold ek_rank_key, skl_bisect_key_right. repeat first [apply fk_inner|progress calm]. Qed.

  Lemma free_kstep o w (s : SKL) : Shape kf s -> kop_ok o ->
    ek_step srt (free2 vlt) (free2 eq) (free2 klt) (free2 keq) (free1 kf) dflt o (w, s) =
    (fst (skl_step vlt eq klt keq kf dflt o s), (w, snd (skl_step vlt eq klt keq kf dflt o s))).
  Proof.
    intros Hs Hok. pose proof (skl_vt_ok klt kf) as HT.
    assert (HE : Shape kf (skl_empty dflt : SKL)) by (apply shape_empty; exact Hd).
    destruct o as [o|k|k|mn mx a b r]; cbn [ek_step skl_step];
      [|apply calm_obs; apply fk_left|apply calm_obs; apply fk_right|apply calm_obs; apply fk_irange_key].
    destruct o; cbn [ek_lstep skl_lstep kop_ok lop_ok] in *; try apply calm_obs.
    - apply fk_add.
    - apply fk_update; exact Hs.
    - apply calm_own.
    - unfold ek_discard, skl_discard. apply calm_bind; [apply fk_find|]. intros; calm.
    - unfold ek_remove, skl_remove. apply calm_bind; [apply fk_find|]. intros; calm.
    - unfold ek_contains, skl_contains. apply calm_bind; [apply fk_find|]. intros; calm.
    - apply fk_inner.
    - apply fk_inner.
    - eapply calm_delitem; try reflexivity; intros; apply calm_own.
    - eapply calm_delslice; try eassumption; try reflexivity; intros; try apply calm_own. apply fk_update; assumption.
    - eapply calm_pop; try reflexivity; intros; apply calm_own.
    - apply fk_inner.
    - apply fk_inner.
    - apply fk_inner.
    - unfold ek_rank, skl_bisect_left. apply calm_bind; [apply calm_user; reflexivity|]. intros; apply fk_left.
    - unfold ek_rank, skl_bisect_right. apply calm_bind; [apply calm_user; reflexivity|]. intros; apply fk_right.
    - unfold ek_count, skl_count. repeat first [apply calm_user; intros; apply fk_count|progress calm].
    - unfold ek_index, skl_index. repeat first [apply fk_index_loop|apply fk_inner|progress calm].
    - unfold ek_irange, skl_irange.
      assert (KO : forall o (s : SKL), Calm (W:=W) (user (e_key_opt (free1 kf) o)) (liftr (key_opt kf o)) s).
      { intros o0 s0. apply calm_user. intros w0. destruct o0 as [v|]; [|reflexivity]. unfold e_key_opt, key_opt, bind, free1, liftr. destruct (kf v); reflexivity. }
      apply calm_bind; [apply KO|]. intros. apply calm_bind; [apply KO|]. intros. apply fk_irange_key.
    - apply fk_inner.
    - eapply calm_reset; try eassumption; try reflexivity; intros; try apply calm_own. apply fk_update; assumption.
    - apply fk_update; exact Hs.
    - eapply calm_imul; try eassumption; try reflexivity; intros; try apply calm_own. apply fk_update; assumption.
    - apply (calm_rebind (skl_empty dflt) _ _ (fun s => ek_new srt (free2 klt) (free1 kf) dflt (concat (lists (kc s)))) (fun s => skl_new klt kf dflt (concat (lists (kc s)))) s w (fk_update (concat (lists (kc s))) _ HE)); reflexivity.
    - apply (calm_rebind (skl_empty dflt) _ _ (fun s => ek_new srt (free2 klt) (free1 kf) dflt (contents (kc s) ++ it)) (fun s => skl_new klt kf dflt (contents (kc s) ++ it)) s w (fk_update (contents (kc s) ++ it) _ HE)); reflexivity.
    - apply (calm_rebind (skl_empty dflt) _ _ (fun s => ek_new srt (free2 klt) (free1 kf) dflt (list_mul (contents (kc s)) n)) (fun s => skl_new klt kf dflt (list_mul (contents (kc s)) n)) s w (fk_update (list_mul (contents (kc s)) n) _ HE)); reflexivity.
    - apply (calm_rebind (skl_empty dflt) _ _ (fun s => ek_new srt (free2 klt) (free1 kf) dflt (contents (kc s))) (fun s => skl_new klt kf dflt (contents (kc s))) s w (fk_update (contents (kc s)) _ HE)); reflexivity.
    - intros w0. unfold bind, own, user, oncore, zoom, get. cbn [fst snd skl_vt vt_get vt_put].
      destruct (free_compare vlt eq op other (kc s) w0) as [E1 E2]. rewrite E1. destruct (compare vlt eq op other (kc s)) as [r c]. cbn [fst snd] in *.
      subst c. destruct s; reflexivity.
    - apply calm_raise.
  Qed.
End KeyFree.

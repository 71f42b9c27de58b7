(** * Lemmas: with functions that only answer, ModelKReads.v is Model.v *)
From Coq Require Import Lia.
From Verif Require Import PyBase Model Spec History BaseFacts SpecFacts SliceFacts Reach Shape CoreFacts VtFacts KeyFacts KeyLook ListSim ListFacts HistFacts
  ListProps FaultFacts FaultHist KeyProps OrderFacts KeyUseSpec KeyUseProps ModelKReads KReadsSpec KReadsFacts.
Local Unset Implicit Arguments.

Section Same.
  Context {V K : Type}.
  Notation SKL := (skl V K).
  Variable a : answers V K.
  Variable dflt : nat.
  Notation pklt := (total2 (a_klt a)).
  Notation pkeq := (total2 (a_keq a)).
  Notation pvlt := (total2 (a_vlt a)).
  Notation peq := (total2 (a_eq a)).
  Notation pkf := (total1 (a_key a)).
  Notation kf := (c_key (only_answers a)).
  Notation klt := (c_klt (only_answers a)).
  Notation keq := (c_keq (only_answers a)).
  Notation eq := (c_eq (only_answers a)).
  Notation vlt := (c_vlt (only_answers a)).

  (** [m] is [r] and leaves the list alone. *)
  Definition pure {A} (m : M SKL A) (r : res A) : Prop := forall s, m s = (r, s).
  Lemma pure_lift {A} (r : res A) : pure (liftr r) r.
  Proof. intros s. reflexivity. Qed.
  Lemma pure_ret {A} (x : A) : pure (ret x) (Ok x).
  Proof. intros s. reflexivity. Qed.
  Lemma pure_raise {A} e : pure (@raise SKL A e) (Err e).
  Proof. intros s. reflexivity. Qed.
  Lemma pure_bind {A B} (m : M SKL A) r (f : A -> M SKL B) g : pure m r -> (forall x, pure (f x) (g x)) -> pure (bind m f) (rbind r g).
  Proof. intros Hm Hf s. unfold bind. rewrite Hm. destruct r as [x|e]; cbn [rbind]; [apply Hf|reflexivity]. Qed.
  Lemma pure_kf v : pure (kf v) (pkf v).
  Proof. intros s. reflexivity. Qed.
  Lemma pure_klt x y : pure (klt x y) (pklt x y).
  Proof. intros s. reflexivity. Qed.
  Lemma pure_keq x y : pure (keq x y) (pkeq x y).
  Proof. intros s. reflexivity. Qed.
  Lemma pure_eq x y : pure (eq x y) (peq x y).
  Proof. intros s. reflexivity. Qed.
  Lemma pure_vlt x y : pure (vlt x y) (pvlt x y).
  Proof. intros s. reflexivity. Qed.
  Ltac g1 := first
    [ apply pure_ret | apply pure_lift | apply pure_raise | apply pure_kf | apply pure_klt | apply pure_keq | apply pure_eq | apply pure_vlt
    | (apply pure_bind; [|intros ?]) ].
  Lemma bisr_pure xs x : pure (kr_bisect_right klt xs x) (bisect_right pklt xs x).
  Proof.
    assert (L : forall fuel lo hi, pure (kr_bisect_right_loop klt fuel xs x lo hi) (bisect_right_loop pklt fuel xs x lo hi)); [|apply L].
    induction fuel as [|fuel IH]; intros lo hi; cbn [kr_bisect_right_loop bisect_right_loop]; [g1|].
    destruct (lo <? hi); [|g1]. cbv zeta. g1; [g1|]. g1; [g1|]. match goal with b : bool |- _ => destruct b end; apply IH.
  Qed.
  Lemma bisl_pure xs x : pure (kr_bisect_left klt xs x) (bisect_left pklt xs x).
  Proof.
    assert (L : forall fuel lo hi, pure (kr_bisect_left_loop klt fuel xs x lo hi) (bisect_left_loop pklt fuel xs x lo hi)); [|apply L].
    induction fuel as [|fuel IH]; intros lo hi; cbn [kr_bisect_left_loop bisect_left_loop]; [g1|].
    destruct (lo <? hi); [|g1]. cbv zeta. g1; [g1|]. g1; [g1|]. match goal with b : bool |- _ => destruct b end; apply IH.
  Qed.
  Lemma mapM_pure {A B} (f : A -> M SKL B) g xs : (forall x, pure (f x) (g x)) -> pure (mapM f xs) (mapR g xs).
  Proof. intros H. induction xs as [|x xs IH]; cbn [mapM mapR]; [g1|]. g1; [apply H|]. g1; [exact IH|]. g1. Qed.
  Lemma sorted_pure xs : pure (kr_sorted_key klt kf xs) (py_sorted_key pklt pkf xs).
  Proof.
    assert (Ins : forall x t, pure (kr_sort_ins klt x t) (sort_ins (fun p q => pklt (fst p) (fst q)) x t)).
    { intros x t. induction t as [|y t IH]; cbn [kr_sort_ins sort_ins]; [g1|]. g1; [g1|]. match goal with b : bool |- _ => destruct b end; [g1|].
      g1; [exact IH|]. g1. }
    assert (Acc : forall t acc, pure (kr_sort_acc klt acc t) (sort_acc (fun p q => pklt (fst p) (fst q)) acc t)).
    { intros t. induction t as [|x t IH]; intros acc; cbn [kr_sort_acc sort_acc]; [g1|]. g1; [apply Ins|]. apply IH. }
    unfold kr_sorted_key, py_sorted_key. g1; [apply mapM_pure; intros; g1|]. g1; [apply Acc|]. g1.
  Qed.
  Lemma scan_pure fuel s k v : forall p i n, pure (kr_scan_loop eq keq fuel s k v p i n) (scan_loop peq pkeq fuel s k v p i n).
  Proof.
    induction fuel as [|fuel IH]; intros p i n; cbn [kr_scan_loop scan_loop]; [g1|].
    g1; [g1|]. g1; [g1|]. g1; [g1|]. match goal with |- pure (if negb ?b then _ else _) _ => destruct b; cbn [negb] end; [|g1].
    g1; [g1|]. g1; [g1|]. g1; [g1|]. match goal with |- pure (if ?b then _ else _) _ => destruct b end; [g1|]. cbv zeta.
    destruct (i + 1 =? n); [|apply IH]. destruct (p + 1 =? length (keys s)); [g1|]. g1; [g1|]. apply IH.
  Qed.
  Lemma count_pure fuel s k v : forall p i n t, pure (kr_count_loop eq keq fuel s k v p i n t) (count_loop peq pkeq fuel s k v p i n t).
  Proof.
    induction fuel as [|fuel IH]; intros p i n t; cbn [kr_count_loop count_loop]; [g1|].
    g1; [g1|]. g1; [g1|]. g1; [g1|]. match goal with |- pure (if negb ?b then _ else _) _ => destruct b; cbn [negb] end; [|g1].
    g1; [g1|]. g1; [g1|]. g1; [g1|]. cbv zeta.
    destruct (i + 1 =? n); [|apply IH]. destruct (p + 1 =? length (keys s)); [g1|]. g1; [g1|]. apply IH.
  Qed.
  Lemma cmp_loop_pure op n m : forall xs ys, pure (kr_cmp_loop vlt eq op n m xs ys) (cmp_loop pvlt peq op n m xs ys).
  Proof.
    induction xs as [|x xs IH]; intros [|y ys]; cbn [kr_cmp_loop cmp_loop]; try g1; [g1|].
    match goal with b : bool |- _ => destruct b end; [apply IH|]. destruct op; cbn [kr_cmp_elt cmp_elt]; g1; g1.
  Qed.
  Lemma key_opt_pure o : pure (kr_key_opt kf o) (key_opt pkf o).
  Proof. destruct o; cbn [kr_key_opt key_opt]; g1; g1. Qed.

  (** Two computations that are the same. *)
  Definition same {A} (m m' : M SKL A) : Prop := forall s, m s = m' s.
  Lemma same_refl {A} (m : M SKL A) : same m m.
  Proof. intros s. reflexivity. Qed.
  Lemma same_pure {A B} (m : M SKL A) r (f g : A -> M SKL B) : pure m r -> (forall x, same (f x) (g x)) -> same (bind m f) (bind (liftr r) g).
  Proof. intros Hm Hf s. unfold bind, liftr. rewrite Hm. destruct r; [apply Hf|reflexivity]. Qed.
  Lemma same_bind {A B} (m m' : M SKL A) (f g : A -> M SKL B) : same m m' -> (forall x, same (f x) (g x)) -> same (bind m f) (bind m' g).
  Proof. intros Hm Hf s. unfold bind. rewrite Hm. destruct (m' s) as [[x|e] s']; [apply Hf|reflexivity]. Qed.
  Lemma same_get {A} (f g : SKL -> M SKL A) : (forall s, same (f s) (g s)) -> same (bind get f) (bind get g).
  Proof. intros H s. rewrite !bind_get. apply H. Qed.
  Lemma same_lift {A} (m : M SKL A) r : pure m r -> same m (liftr r).
  Proof. intros H s. apply H. Qed.
  Ltac s1 := cbv zeta; lazymatch goal with
    | |- same ?x ?x => apply same_refl
    | |- same (bind get _) (bind get _) => apply same_get; intros ?
    | |- same (bind (kr_bisect_right _ _ _) _) _ => apply same_pure; [apply bisr_pure|intros ?]
    | |- same (bind (kr_bisect_left _ _ _) _) _ => apply same_pure; [apply bisl_pure|intros ?]
    | |- same (bind (kr_key_opt _ _) _) _ => apply same_pure; [apply key_opt_pure|intros ?]
    | |- same (bind (c_key _ _) _) _ => apply same_pure; [apply pure_kf|intros ?]
    | |- same (bind (c_keq _ _ _) _) _ => apply same_pure; [apply pure_keq|intros ?]
    | |- same (bind (c_eq _ _ _) _) _ => apply same_pure; [apply pure_eq|intros ?]
    | |- same (bind ?m _) (bind ?m _) => apply same_bind; [apply same_refl|intros ?]
    | |- same (bind (shared _ _ _) _) _ => apply same_bind; [apply same_refl|intros ?]
    | |- same (shared _ _ _) _ => apply same_refl
    | |- same (if ?b then _ else _) _ => destruct b end.

  Lemma add_same v : same (kr_add klt kf v) (skl_add pklt pkf v).
  Proof. unfold kr_add, skl_add. s1. s1. apply same_bind; [|intros; s1]. repeat s1. Qed.
  Lemma find_same v : same (kr_find eq klt keq kf v) (skl_find peq pklt pkeq pkf v).
  Proof. unfold kr_find, skl_find. repeat s1. apply same_lift, scan_pure. Qed.
  Lemma count_same v : same (kr_count eq klt keq kf v) (skl_count peq pklt pkeq pkf v).
  Proof. unfold kr_count, skl_count. repeat s1. apply same_lift, count_pure. Qed.
  Lemma rank_left_same k : same (kr_rank_key klt kf (kr_bisect_left klt) k) (skl_bisect_key_left pklt pkf k).
  Proof. unfold kr_rank_key, skl_bisect_key_left. repeat s1. Qed.
  Lemma rank_right_same k : same (kr_rank_key klt kf (kr_bisect_right klt) k) (skl_bisect_key_right pklt pkf k).
  Proof. unfold kr_rank_key, skl_bisect_key_right. repeat s1. Qed.
  Lemma index_same v i j : same (kr_index eq klt keq kf v i j) (skl_index peq pklt pkeq pkf v i j).
  Proof.
    assert (L : forall fuel k lo hi p q n, same (kr_index_loop eq klt keq kf fuel k v lo hi p q n) (index_loop peq pklt pkeq pkf fuel k v lo hi p q n)).
    { induction fuel as [|fuel IH]; intros; cbn [kr_index_loop index_loop]; repeat first [s1|apply IH]. }
    unfold kr_index, skl_index. repeat first [s1|apply L].
  Qed.
  Lemma irange_key_same mn mx i1 i2 rv : same (kr_irange_key klt mn mx i1 i2 rv) (skl_irange_key pklt mn mx i1 i2 rv).
  Proof.
    unfold kr_irange_key, skl_irange_key. s1. s1; [s1|]. apply same_bind; [destruct mn; [destruct i1|]; repeat s1|].
    intros [[p i]|]; [|s1]. apply same_bind; [destruct mx; [destruct i2|]; repeat s1|]. intros q. s1.
  Qed.
  Lemma compare_same op other : same (kr_compare vlt eq op other) (oncore (skl_vt pklt pkf) (compare pvlt peq op other)).
  Proof.
    intros s. unfold kr_compare, oncore, zoom, compare, skl_vt. cbn [vt_get vt_put]. rewrite !bind_get. cbv zeta.
    destruct (_ && _); [destruct s; reflexivity|]. destruct (_ && _); [destruct s; reflexivity|]. rewrite cmp_loop_pure. destruct s; reflexivity.
  Qed.

  (** Filling the list. *)
  Definition ready (s : SKL) : Prop := (maxes (kc s) = [] -> lists (kc s) = [] /\ keys s = []) /\ 1 <= load (kc s).
  Lemma keys_same ls : forall s, forM (fun l => ks <- mapM kf l ;; modify (fun s => set_keys (keys s ++ [ks]) s)) ls s =
    (Ok tt, set_keys (keys s ++ map (map (a_key a)) ls) s).
  Proof.
    induction ls as [|l ls IH]; intros s; cbn [forM map]; [rewrite app_nil_r; destruct s; reflexivity|].
    pose proof (mapM_pure kf pkf l pure_kf s) as E. change (mapR pkf l) with (mapR (fun x => Ok (a_key a x)) l) in E. rewrite mapR_map in E.
    unfold bind at 1. unfold bind at 1. rewrite E. unfold modify at 1. rewrite IH. cbn [keys set_keys]. rewrite <- app_assoc. reflexivity.
  Qed.
  Lemma lasts_ok (cs : list (list V)) : Forall (fun c => c <> []) cs -> exists ms, mapR getlast (map (map (a_key a)) cs) = Ok ms.
  Proof.
    induction 1 as [|c cs Hc _ [ms IH]]; [exists []; reflexivity|]. destruct (getlast_ne (map (a_key a) c)) as [x Hx]; [destruct c; [congruence|discriminate]|].
    exists (x :: ms). cbn [map mapR]. rewrite Hx. cbn [rbind]. rewrite IH. reflexivity.
  Qed.
  Lemma fill_same values s : ready s -> maxes (kc s) = [] -> kr_fill kf values s = skl_fill pkf values s.
  Proof.
    intros [H Hl] Hm. destruct (H Hm) as [H1 H2]. destruct (chunks_ok (load (kc s)) values Hl) as (cs & Ec & _ & Hc & _).
    assert (Hn : Forall (fun c => c <> []) cs) by (eapply Forall_impl; [|exact Hc]; intros c Q; apply Q). destruct (lasts_ok cs Hn) as [ms Em].
    assert (Ek : mapR (mapR pkf) cs = Ok (map (map (a_key a)) cs)).
    { rewrite (mapR_ext_in _ (fun x => Ok (map (a_key a) x))); [apply mapR_map|]. intros x _. apply mapR_map. }
    unfold kr_fill, skl_fill. unfold modifyR at 1 3. unfold bind at 1. rewrite Ec. cbn [rbind]. rewrite bind_get.
    unfold bind at 1. rewrite keys_same. unfold modifyR. destruct s as [[ls mx ix off n ld] kss]. cbn in *. subst. cbn [app].
    rewrite Ek. cbn [rbind app]. rewrite Em. reflexivity.
  Qed.
  Lemma update_same it s : ready s -> kr_update klt kf it s = skl_update pklt pkf it s.
  Proof.
    intros H. unfold kr_update, skl_update. pose proof (sorted_pure it s) as Q. destruct (py_sorted_key pklt pkf it) as [values|e].
    2:{ rewrite (bind_err _ _ _ _ _ Q). reflexivity. }
    rewrite (bind_ok _ _ _ _ _ Q), (bind_lift _ _ _ _ Logic.eq_refl). clear Q. rewrite !bind_get. destruct (is_nil (maxes (kc s))) eqn:En.
    { apply fill_same; [exact H|]. destruct (maxes (kc s)); [reflexivity|discriminate]. }
    destruct (_ <=? _).
    - set (s1 := on_kc (fun c => set_lists (lists c ++ [values]) c) s).
      rewrite !(bind_ok (modify (on_kc (fun c => set_lists (lists c ++ [values]) c))) _ s tt s1 Logic.eq_refl). rewrite !bind_get.
      pose proof (sorted_pure (concat (lists (kc s1))) s1) as Q. destruct (py_sorted_key pklt pkf (concat (lists (kc s1)))) as [all|e].
      2:{ rewrite (bind_err _ _ _ _ _ Q). reflexivity. }
      rewrite (bind_ok _ _ _ _ _ Q), (bind_lift _ _ _ _ Logic.eq_refl).
      rewrite !(bind_ok (@skl_clear V K) _ s1 tt (snd (skl_clear s1)) Logic.eq_refl). apply fill_same; [|reflexivity].
      split; [intros _; split; reflexivity|apply H].
    - revert s H En. induction values as [|v values IH]; intros s H En; cbn [forM]; [reflexivity|]. apply same_bind; [apply add_same|]. intros _ s'.
      clear. revert s'. induction values as [|v values IH]; intros s'; cbn [forM]; [reflexivity|]. apply same_bind; [apply add_same|]. intros _. exact IH.
  Qed.
  Lemma new_same it : 1 <= dflt -> pure (kr_new klt kf dflt it) (skl_new pklt pkf dflt it).
  Proof.
    intros Hd.
    assert (Q : skl_new pklt pkf dflt it = (let! values := py_sorted_key pklt pkf it in let! cs := chunks dflt values in
      let! kss := mapR (mapR pkf) cs in let! ms := mapR getlast kss in Ok (mkskl (mkcore cs ms [] 0 (length values) dflt) kss))).
    { unfold skl_new, skl_update, bind, liftr, get. destruct (py_sorted_key pklt pkf it) as [values|]; cbn [rbind]; [|reflexivity].
      cbn [skl_empty kc core_empty maxes is_nil]. unfold skl_fill, modifyR. cbn [skl_empty kc core_empty load lists app keys].
      destruct (chunks dflt values) as [cs|]; cbn [rbind]; [|reflexivity]. destruct (mapR (mapR pkf) cs) as [kss|]; cbn [rbind]; [|reflexivity].
      destruct (mapR getlast kss) as [ms|]; reflexivity. }
    rewrite Q. unfold kr_new. g1; [apply sorted_pure|]. g1; [g1|]. g1; [apply mapM_pure; intros; apply mapM_pure; intros; g1|]. g1; [g1|]. g1.
  Qed.
  Lemma shape_ready s : Shape pkf s -> ready s.
  Proof.
    intros (rows & H & _). split; [|apply (sh_load _ _ _ H)]. intros E. rewrite (sh_maxes _ _ _ H) in E. destruct rows; [|discriminate].
    rewrite (sh_lists _ _ _ H), (sh_keys _ _ _ H). auto.
  Qed.

  Lemma step_same o s : 1 <= dflt -> Shape pkf s -> kop_ok o ->
    kr_step vlt eq klt keq kf dflt o s = skl_do (a_key a) (a_klt a) (a_keq a) (a_vlt a) (a_eq a) dflt o s.
  Proof.
    intros Hd HS Ho.
    assert (X : forall A (inj : A -> out V) (m m' : M SKL A), m s = m' s -> observe inj m s = observe inj m' s).
    { intros A inj m m' E. unfold observe. rewrite E. reflexivity. }
    assert (Y : forall f, rebind (V := V) (s <- get ;; kr_new klt kf dflt (f s)) s = rebind (s <- get ;; liftr (skl_new pklt pkf dflt (f s))) s).
    { intros f. unfold rebind. rewrite !bind_get. rewrite (new_same (f s) Hd s). reflexivity. }
    unfold skl_do. destruct o as [o|k|k|mn mx i1 i2 rv]; [destruct o|..]; cbn [kr_step kr_lstep skl_step skl_lstep]; try reflexivity; try apply X; try apply Y.
    - apply add_same.
    - apply update_same, shape_ready, HS.
    - apply same_bind; [apply find_same|intros; apply same_refl].
    - apply same_bind; [apply find_same|intros; apply same_refl].
    - apply same_bind; [apply find_same|intros; apply same_refl].
    - destruct (o_delslice (@kc V K) set_kc (@skl_clear V K) (@skl_delete V K) (Shape pkf) _ (skl_vt_ok pklt pkf)
          (fun s => ex_intro _ _ Logic.eq_refl) sl s HS) as [[_ G]|(s1 & s2 & rest & I1 & Hs2 & Em & G)].
      + exact (G (kr_update klt kf)).
      + unfold kr_vt, skl_vt. rewrite (G (kr_update klt kf)), (G (skl_update pklt pkf)).
        destruct (vo_clear _ _ (skl_vt_ok pklt pkf) s1 I1) as (s3 & C1 & C2 & _). cbn [vt_clear skl_vt] in C1. rewrite Hs2 in C1. injection C1 as <-.
        apply update_same, shape_ready, C2.
    - apply same_bind; [apply same_lift, pure_kf|]. intros k. apply rank_left_same.
    - apply same_bind; [apply same_lift, pure_kf|]. intros k. apply rank_right_same.
    - apply count_same.
    - apply index_same.
    - unfold kr_irange, skl_irange. apply same_bind; [apply same_lift, key_opt_pure|]. intros k1. apply same_bind; [apply same_lift, key_opt_pure|]. intros k2.
      apply irange_key_same.
    - change (kr_update klt kf (contents (kc s)) (mkskl (set_load ld (kc (snd (skl_clear s)))) (keys (snd (skl_clear s)))) =
              skl_update pklt pkf (contents (kc s)) (mkskl (set_load ld (kc (snd (skl_clear s)))) (keys (snd (skl_clear s))))).
      apply update_same. split; [intros _; split; reflexivity|exact Ho].
    - apply update_same, shape_ready, HS.
    - change (kr_update klt kf (list_mul (contents (kc s)) n) (snd (skl_clear s)) = skl_update pklt pkf (list_mul (contents (kc s)) n) (snd (skl_clear s))).
      apply update_same. split; [intros _; split; reflexivity|apply (shape_ready s HS)].
    - apply compare_same.
    - apply rank_left_same.
    - apply rank_right_same.
    - apply irange_key_same.
  Qed.
End Same.

Lemma c122_same : forall (V K : Type) (a : answers V K) dflt s o,
  TotalOrder (a_klt a) (a_keq a) -> EqCompat (by_key (a_key a) (a_klt a)) (a_eq a) -> 1 <= dflt ->
  skl_reach (a_key a) (a_klt a) (a_keq a) (a_vlt a) (a_eq a) dflt s -> kop_ok o ->
  (let u := only_answers a in kr_step (c_vlt u) (c_eq u) (c_klt u) (c_keq u) (c_key u) dflt o s) =
    skl_do (a_key a) (a_klt a) (a_keq a) (a_vlt a) (a_eq a) dflt o s.
Proof.
  intros V K a dflt s o HT HE Hd Hs Ho.
  apply step_same; [exact Hd|apply (kreach_inv (a_key a) (a_klt a) (a_keq a) (a_vlt a) (a_eq a) dflt HT HE Hd s Hs)|exact Ho].
Qed.

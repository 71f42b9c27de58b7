(** * The heap methods of SortedKeyList simulate those of Model.v *)
From Verif Require Import PyBase Model Spec History ModelHeap ModelKHeap HeapFacts HeapSim HeapSim2 KHeapFacts.
Local Unset Implicit Arguments.

Section Steps.
  Context {V : Type}.
  Variable lt : V -> V -> res bool.
  Variable kf : V -> res V.
  Notation ST := (heap V * khsl V)%type.

  Lemma oncore_skl {A} (m : M (core V V) A) s : oncore (skl_vt lt kf) m s = (fst (m (kc s)), mkskl (snd (m (kc s))) (keys s)).
  Proof. unfold oncore, zoom. cbn. destruct (m (kc s)); reflexivity. Qed.
  Lemma ksim_base {A} (m : M (core V V) A) hm : sim0 m hm -> ksim0 (oncore (skl_vt lt kf) m) (onbase hm).
  Proof.
    intros H n s HG Hn _. destruct (base_run any same m hm s HG I (H _)) as (E & G & F & X). rewrite oncore_skl. cbn [fst snd].
    split; [exact E|]. split; [exact G|]. split; [eapply kframe_le; eassumption|exact X].
  Qed.
  Lemma ksim_base_new n (m : M (core V V) (list V)) hm : (forall n, sim n any (fun v b s => newlist n v b s) m hm) ->
    ksim n kany (fun v b s => knewlist n v b s) (oncore (skl_vt lt kf) m) (onbase hm).
  Proof.
    intros H s HG Hn _. destruct (base_run any _ m hm s HG I (H (length (fst s)))) as (E & G & F & X). rewrite oncore_skl. cbn [fst snd].
    split; [exact E|]. split; [exact G|]. split; [eapply kframe_le; eassumption|].
    destruct (fst (m (kc (kview s)))), (fst (onbase hm s)); try exact X. destruct X as (X1 & X2 & X3 & X4).
    split; [exact X1|]. split; [exact X2|]. split; [|lia]. unfold krefs. intros Hi. apply in_app_iff in Hi as [Hi|Hi]; [exact (X3 Hi)|].
    assert (Ek : krows (snd (snd (onbase hm s))) = krows (snd s)) by (unfold onbase, zoom; destruct (hm (fst s, kbase (snd s))); reflexivity).
    rewrite Ek in Hi. destruct HG as [_ HF]. unfold krefs in HF. apply Forall_app in HF as [_ HF]. rewrite Forall_forall in HF.
    specialize (HF _ Hi). lia.
  Qed.
  Lemma ksim_row pos f (fc : skl V V -> res (skl V V)) :
    (forall s, fc s = let! ls := updn (lists (kc s)) pos f in Ok (on_kc (set_lists ls) s)) ->
    ksim0 (modifyR fc) (onbase (h_change pos f)).
  Proof.
    intros Hf n. eapply ksim_point; [|reflexivity|].
    2:{ apply (ksim_base (modifyR (fun c : core V V => let! ls := updn (lists c) pos f in Ok (set_lists ls c)))), sim_change. reflexivity. }
    intros s. rewrite oncore_skl. unfold modifyR. rewrite Hf. destruct (updn (lists (kc s)) pos f); destruct s; reflexivity.
  Qed.
  Lemma ksim_keys pos f (fc : skl V V -> res (skl V V)) :
    (forall s, fc s = let! kss := updn (keys s) pos f in Ok (set_keys kss s)) ->
    ksim0 (modifyR fc) (k_change pos f).
  Proof.
    intros Hf n. apply ksim_modifyR. intros [h [b ks]] [HN HF] _ _. rewrite Hf. unfold k_change, modifyR. unfold krefs in *. cbn [kview keys fst snd krows kbase] in *.
    apply Forall_app in HF as [HF1 HF2].
    rewrite updn_cell by (try assumption; exact (nodup_r _ _ HN)). destruct (getn ks pos) as [p|e] eqn:E; cbn; [|auto].
    destruct (f (cell h p)) as [l|e]; cbn; [|auto]. pose proof (getn_In _ _ _ E) as Hp. split; [|split].
    - unfold set_keys. cbn. do 2 f_equal. apply cells_same. intros r Hr. apply cell_write_other. intros ->.
      exact (nodup_disjoint _ _ p HN Hr Hp).
    - split; [exact HN|]. unfold krefs. cbn. rewrite length_write. apply Forall_app. split; assumption.
    - split; [|reflexivity]. split; [cbn; rewrite length_write; lia|]. split; [|intros r Hr; left; exact Hr].
      intros r _ Hr. apply cell_write_other. intros ->. apply Hr. unfold krefs. cbn. apply in_app_iff. right. exact Hp.
  Qed.
  Lemma ksim_clear : ksim0 (skl_clear (V:=V) (K:=V)) k_clear.
  Proof.
    intros n [h o] _ _ _. cbn. split; [reflexivity|]. split; [split; constructor|]. split; [|reflexivity].
    split; [cbn; lia|]. split; [reflexivity|]. intros r [].
  Qed.

  Lemma In_krefs r (o : khsl V) : In r (krefs o) <-> In r (rows (kbase o)) \/ In r (krows o).
  Proof. apply in_app_iff. Qed.

  Lemma ksim_expand pos : ksim0 (skl_expand (V:=V) (K:=V) pos) (k_expand pos).
  Proof.
    intros n. apply ksim_modifyR. intros [h [b ks]] [HN HF] Hl _. unfold k_expand, modifyR. cbn [fst snd] in HN, HF, Hl. unfold krefs in HN, HF.
    cbn [kview kc keys view lists load maxes kbase krows] in *. rewrite getn_map. destruct (getn ks pos) as [q|e] eqn:Eq; cbn [rbind]; [|auto].
    pose proof (nodup_l _ _ HN) as HN1. pose proof (nodup_r _ _ HN) as HN2. apply Forall_app in HF as [HF1 HF2].
    pose proof HF1 as HB1. pose proof HF2 as HB2. rewrite Forall_forall in HB1, HB2.
    pose proof (getn_In _ _ _ Eq) as Hq. pose proof (HB2 q Hq) as Lq.
    destruct (hload b * 2 <? length (cell h q)).
    - rewrite getn_map. destruct (getn (rows b) pos) as [p|e] eqn:Ep; cbn [rbind]; [|auto].
      pose proof (getn_In _ _ _ Ep) as Hp. pose proof (HB1 p Hp) as Lp.
      assert (Npq : p <> q) by (intros ->; exact (nodup_disjoint _ _ q HN Hp Hq)).
      unfold setn at 1. rewrite updn_cell by assumption. rewrite Ep. cbn [rbind].
      unfold setn at 1. rewrite updn_cell by assumption. rewrite Eq. cbn [rbind alloc].
      set (h1 := h ++ [skipn (hload b) (cell h p)]).
      assert (Eq1 : cell h1 q = cell h q) by (apply cell_app_old, Lq). rewrite Eq1.
      set (h2 := h1 ++ [skipn (hload b) (cell h q)]).
      assert (L1 : length h1 = length h + 1) by (unfold h1; rewrite app_length; reflexivity).
      assert (L2 : length h2 = length h + 2) by (unfold h2; rewrite app_length, L1; cbn; lia).
      assert (C2 : forall r, r < length h -> cell h2 r = cell h r).
      { intros r Hr. unfold h2. rewrite cell_app_old by lia. apply cell_app_old, Hr. }
      rewrite (C2 p Lp). set (h3 := write h2 p (firstn (hload b) (cell h p))).
      assert (L3 : length h3 = length h + 2) by (unfold h3; rewrite length_write; exact L2).
      assert (E3 : cell h3 q = cell h q) by (unfold h3; rewrite cell_write_other by congruence; apply C2, Lq).
      rewrite E3. set (h4 := write h3 q (firstn (hload b) (cell h q))).
      assert (Cq : cell h4 q = firstn (hload b) (cell h q)) by (apply cell_write_same; lia). rewrite Cq.
      assert (Cp : cell h4 p = firstn (hload b) (cell h p)).
      { unfold h4. rewrite cell_write_other by exact Npq. apply cell_write_same. lia. }
      assert (Co : forall r, r < length h -> r <> p -> r <> q -> cell h4 r = cell h r).
      { intros r Hr Hrp Hrq. unfold h4. rewrite cell_write_other by exact Hrq. unfold h3. rewrite cell_write_other by exact Hrp. apply C2, Hr. }
      assert (Ck : cell h4 (length h1) = skipn (hload b) (cell h q)).
      { unfold h4. rewrite cell_write_other by lia. unfold h3. rewrite cell_write_other by lia. apply cell_app_new. }
      assert (Cl : cell h4 (length h) = skipn (hload b) (cell h p)).
      { unfold h4. rewrite cell_write_other by lia. unfold h3. rewrite cell_write_other by lia. unfold h2. rewrite cell_app_old by lia. apply cell_app_new. }
      assert (L4 : length h4 = length h + 2) by (unfold h4; rewrite length_write; exact L3).
      rewrite Ck. clearbody h4. clear h2 h3 L2 C2 L3 E3.
      destruct (getlast (firstn (hload b) (cell h q))) as [m|e]; cbn [rbind]; [|auto].
      destruct (setn (hmaxes b) pos m) as [ms|e]; cbn [rbind]; [|auto].
      destruct (getlast (skipn (hload b) (cell h q))) as [hm|e]; cbn [rbind]; [|auto].
      split; [|split; [|split; [|reflexivity]]].
      + unfold set_index, set_maxes, set_lists. cbn. rewrite !map_insn, Ck, Cl. f_equal; [f_equal|].
        * f_equal. apply cells_same. intros r Hr. destruct (Nat.eq_dec r p) as [->|Hn].
          -- rewrite Cp, cell_write_same by exact Lp. reflexivity.
          -- rewrite cell_write_other by exact Hn. apply Co; [apply HB1, Hr|exact Hn|]. intros ->. exact (nodup_disjoint _ _ q HN Hr Hq).
        * f_equal. apply cells_same. intros r Hr. destruct (Nat.eq_dec r q) as [->|Hn].
          -- rewrite Cq, cell_write_same by exact Lq. reflexivity.
          -- rewrite cell_write_other by exact Hn. apply Co; [apply HB2, Hr| |exact Hn]. intros ->. exact (nodup_disjoint _ _ p HN Hp Hr).
      + split; unfold krefs; cbn.
        * apply nodup_join.
          -- apply NoDup_insn; [exact HN1|]. intros H. specialize (HB1 _ H). lia.
          -- apply NoDup_insn; [exact HN2|]. intros H. specialize (HB2 _ H). lia.
          -- intros r H1 H2. apply In_insn in H1, H2. destruct H1 as [->|H1], H2 as [H2|H2]; try lia.
             ++ specialize (HB2 _ H2). lia.
             ++ subst r. specialize (HB1 _ H1). lia.
             ++ exact (nodup_disjoint _ _ r HN H1 H2).
        * apply Forall_app. split; apply Forall_forall; intros r Hr; apply In_insn in Hr as [->|Hr]; try lia.
          -- specialize (HB1 _ Hr). lia.
          -- specialize (HB2 _ Hr). lia.
      + split; cbn; [lia|]. unfold krefs. cbn. split.
        * intros r Hr Hn. rewrite in_app_iff in Hn. apply Co; [lia| |]; intros ->; tauto.
        * intros r Hr. rewrite in_app_iff in Hr |- *. rewrite !In_insn in Hr. intuition (subst; try (right; lia); auto).
    - destruct (index_inc _ pos) as [c|e] eqn:Ei; cbn [rbind]; [|auto].
      pose proof (index_inc_lists _ _ _ Ei) as El. cbn in El.
      change (h, mkkhsl (snd (put c (h, b))) ks) with (kput (mkskl c (map (cell h) ks)) (h, mkkhsl b ks)).
      split; [apply kview_put; unfold klists; cbn; rewrite El; reflexivity|].
      split; [apply kput_good; split; [exact HN|apply Forall_app; split; assumption]|]. split; [apply kput_frame|reflexivity].
  Qed.

  (** A new list becomes the last of [_lists] or of [_keys]. *)
  Lemma ksim_push n b v : ksim n (knewlist n v b) (fun _ _ => kany) (modify (on_kc (fun c => set_lists (lists c ++ [v]) c)))
    (modify (fun s : ST => (fst s, mkkhsl (set_rows (rows (kbase (snd s)) ++ [b]) (kbase (snd s))) (krows (snd s))))).
  Proof.
    intros [h [o ks]] [HN HF] Hn (E & Hb & Hi & Hnb). unfold krefs in *. cbn in *. split; [|split; [|split; [|exact I]]].
    - unfold on_kc, set_lists. cbn. do 2 f_equal. rewrite map_app. cbn. rewrite E. reflexivity.
    - split; unfold krefs; cbn.
      + rewrite <- app_assoc. cbn. apply (NoDup_Add (a:=b) (l:=rows o ++ ks)); [apply Add_app|]. split; assumption.
      + rewrite <- app_assoc. apply Forall_app in HF as [HF1 HF2]. apply Forall_app. split; [exact HF1|]. constructor; assumption.
    - split; cbn; [lia|]. unfold krefs. cbn. split; [reflexivity|]. intros r Hr. rewrite <- app_assoc in Hr. rewrite in_app_iff in *. cbn in Hr.
      intuition (subst; auto).
  Qed.
  Lemma ksim_push_keys n b v : ksim n (knewlist n v b) (fun _ _ => kany) (modify (fun s => set_keys (keys s ++ [v]) s))
    (modify (fun s : ST => (fst s, set_krows (krows (snd s) ++ [b]) (snd s)))).
  Proof.
    intros [h [o ks]] [HN HF] Hn (E & Hb & Hi & Hnb). unfold krefs in *. cbn in *. split; [|split; [|split; [|exact I]]].
    - unfold set_keys. cbn. f_equal. rewrite map_app. cbn. rewrite E. reflexivity.
    - split; unfold krefs; cbn.
      + rewrite app_assoc. apply (NoDup_Add (a:=b) (l:=rows o ++ ks)); [rewrite <- (app_nil_r (rows o ++ ks)) at 1; apply Add_app|]. split; assumption.
      + rewrite app_assoc. apply Forall_app. split; [exact HF|]. repeat constructor. exact Hb.
    - split; cbn; [lia|]. unfold krefs. cbn. split; [reflexivity|]. intros r Hr. rewrite !in_app_iff in *. cbn in Hr.
      intuition (subst; auto).
  Qed.
  Lemma khdo_new n v : khdo n (kany (V:=V)) (k_alloc v) (fun b s => knewlist n v b s).
  Proof. eapply khdo_weaken; [| |apply (khdo_alloc n kany v), kany_stable]; [auto|]. intros b s [H _]. exact H. Qed.

  Lemma kkeeps_maxes (f : skl V V -> res (list V)) : kkeeps (modifyR (fun s => let! ms := f s in Ok (on_kc (set_maxes ms) s))).
  Proof. apply kkeeps_modifyR. intros c c'. destruct (f c); [|discriminate]. cbn. intros H. apply ok_inj in H as <-. reflexivity. Qed.
  Lemma ksim_maxes (f : skl V V -> res (list V)) : ksim0 (modifyR (fun s => let! ms := f s in Ok (on_kc (set_maxes ms) s)))
    (kreading (modifyR (fun s => let! ms := f s in Ok (on_kc (set_maxes ms) s)))).
  Proof. apply ksim_reading, kkeeps_maxes. Qed.

  Lemma ksim_add v : ksim0 (skl_add lt kf v) (k_add lt kf v).
  Proof.
    intros n. unfold skl_add, k_add. apply ksimn_bind; [apply ksim_liftr|]. intros key.
    apply ksim_get2. intros s. apply ksim_any. apply ksimn_bind.
    2:{ intros _. apply ksim_reading, kkeeps_modify. reflexivity. }
    destruct (is_nil (maxes (kc s))).
    - eapply (ksim_point n _ _ _ (modify (on_kc (fun c => set_lists (lists c ++ [[v]]) c)) ;;; modify (fun s => set_keys (keys s ++ [[key]]) s) ;;;
        modify (on_kc (fun c => set_maxes (maxes c ++ [key]) c)))); [reflexivity|reflexivity|].
      eapply ksim_hstep; [apply khdo_new|]. intros b. eapply ksim_bind; [apply ksim_push|]. intros ? ?; cbv beta.
      eapply ksim_hstep; [apply khdo_new|]. intros b'. eapply ksim_bind; [apply ksim_push_keys|]. intros ? ?; cbv beta.
      apply ksim_reading, kkeeps_modify. reflexivity.
    - apply ksimn_bind; [apply ksim_liftr|]. intros pos. destruct (pos =? length (maxes (kc s))).
      + cbv zeta. apply ksimn_bind; [apply ksim_row; reflexivity|]. intros _.
        apply ksimn_bind; [apply ksim_keys; reflexivity|]. intros _.
        apply ksimn_bind; [apply ksim_maxes|intros _; apply ksim_expand].
      + apply ksimn_bind; [apply ksim_liftr|]. intros ks. apply ksimn_bind; [apply ksim_liftr|]. intros idx.
        apply ksimn_bind; [apply ksim_row; reflexivity|]. intros _.
        apply ksimn_bind; [apply ksim_keys; reflexivity|]. intros _. apply ksim_expand.
  Qed.

  Lemma ksim_fill n b v : ksim n (knewlist n v b) ksame (skl_fill kf v) (k_fill kf b).
  Proof.
    apply ksim_modifyR. intros [h [o ks]] [HN HF] Hn (E & Hb & Hi & Hnb). unfold k_fill, modifyR. unfold krefs in *.
    cbn [fst snd kview kc keys view load lists kbase krows] in *. rewrite E.
    pose proof (nodup_l _ _ HN) as HN1. pose proof (nodup_r _ _ HN) as HN2. apply Forall_app in HF as [HF1 HF2].
    pose proof HF1 as HB1. pose proof HF2 as HB2. rewrite Forall_forall in HB1, HB2.
    destruct (chunks (hload o) v) as [cs|e]; cbn [rbind]; [|auto]. rewrite alloc_all_eq, map_app, cells_app_new.
    rewrite (cells_same h (h ++ cs) (rows o)) by (intros r Hr; apply cell_app_old, HB1, Hr).
    destruct (mapR (mapR kf) (map (cell h) (rows o) ++ cs)) as [nks|e]; cbn [rbind]; [|auto].
    rewrite alloc_all_eq, map_app, cells_app_new.
    assert (Ck : forall r, r < length h -> cell ((h ++ cs) ++ nks) r = cell h r).
    { intros r Hr. rewrite cell_app_old by (rewrite app_length; lia). apply cell_app_old, Hr. }
    rewrite (cells_same h ((h ++ cs) ++ nks) ks) by (intros r Hr; apply Ck, HB2, Hr).
    destruct (mapR getlast (map (cell h) ks ++ nks)) as [ms|e]; cbn [rbind]; [|auto].
    rewrite Ck by exact Hb. rewrite E. split; [|split; [|split; [|reflexivity]]].
    - unfold set_index, set_len, set_maxes, set_lists. cbn. f_equal; [f_equal|].
      + rewrite map_app. f_equal; [apply cells_same; intros r Hr; apply Ck, HB1, Hr|].
        transitivity (map (cell (h ++ cs)) (seq (length h) (length cs))); [|apply cells_app_new]. apply cells_same. intros r Hr. apply in_seq in Hr. apply cell_app_old. rewrite app_length. lia.
      + rewrite map_app. f_equal; [apply cells_same; intros r Hr; apply Ck, HB2, Hr|]. apply cells_app_new.
    - split; unfold krefs; cbn.
      + apply nodup_join.
        * apply nodup_join; [exact HN1|apply seq_NoDup|]. intros r Hr Hs. apply in_seq in Hs. specialize (HB1 _ Hr). lia.
        * apply nodup_join; [exact HN2|apply seq_NoDup|]. intros r Hr Hs. apply in_seq in Hs. specialize (HB2 _ Hr). rewrite app_length in Hs. lia.
        * intros r H1 H2. apply in_app_iff in H1, H2. rewrite !in_seq in *. rewrite app_length in *.
          destruct H1 as [H1|H1], H2 as [H2|H2]; try lia.
          -- exact (nodup_disjoint _ _ r HN H1 H2).
          -- specialize (HB1 _ H1). lia.
          -- specialize (HB2 _ H2). lia.
      + rewrite !app_length. apply Forall_app. split; apply Forall_app; split; apply Forall_forall; intros r Hr; try (apply in_seq in Hr; rewrite ?app_length in Hr; lia).
        * specialize (HB1 _ Hr). lia.
        * specialize (HB2 _ Hr). lia.
    - split; cbn; [rewrite !app_length; lia|]. unfold krefs. cbn. split; [intros r Hr _; apply Ck; lia|].
      intros r Hr. rewrite !in_app_iff, !in_seq, !app_length in Hr. rewrite in_app_iff. intuition (try (right; lia); auto).
  Qed.

  Lemma ksim_add_each n b v : forall f i, f + i = length v ->
    ksim n (knewlist n v b) ksame (forM (skl_add lt kf) (skipn i v)) (k_add_each lt kf f b i).
  Proof.
    induction f as [|f IH]; intros i Hf.
    - rewrite skipn_all2 by lia. apply ksim_any, ksim_ret.
    - cbn [k_add_each]. apply (ksim_cell n _ b v); [intros s (E & _); exact E|].
      rewrite (proj2 (Nat.ltb_lt i (length v))) by lia. unfold getn. destruct (nth_error v i) as [x|] eqn:Ex.
      2:{ apply nth_error_None in Ex. lia. }
      assert (Es : skipn i v = x :: skipn (i + 1) v).
      { clear - Ex. revert i Ex. induction v as [|y v IH]; intros [|i] E; try discriminate; cbn in *; [congruence|]. apply IH, E. }
      rewrite Es. cbn [forM]. eapply (ksim_point n _ _ _ _ _ (k_add lt kf x;;; k_add_each lt kf f b (i + 1))); [reflexivity|reflexivity|].
      apply ksimP_bind; [apply knewlist_stable|apply ksim_add|]. intros _. apply IH. lia.
  Qed.

  (** The argument is read at the start. *)
  Definition kgives (a : harg) (v : list V) : ST -> Prop := fun s => elems (fst s) a = v.

  Lemma ksim_update n a v : ksim n (kgives a v) ksame (skl_update lt kf v) (k_update lt kf a).
  Proof.
    unfold skl_update, k_update. apply ksim_bind with (R := fun l b s => knewlist n l b s).
    { intros s HG Hn Ha. unfold kgives in Ha. unfold liftr, k_sorted. rewrite Ha. destruct (py_sorted_key lt kf v) as [l|e]; cbn [fst snd].
      - destruct (khdo_new n l s HG Hn I) as (b & s' & E & Ev & G & F & X). rewrite E. cbn.
        split; [exact Ev|]. split; [exact G|]. split; [exact F|exact X].
      - split; [reflexivity|]. split; [exact HG|]. split; [apply kframe_refl|reflexivity]. }
    intros l b. apply (ksim_cell n _ b l); [intros s (E & _); exact E|].
    apply ksim_get2. intros c. destruct (is_nil (maxes (kc c))); [eapply ksim_pre; [intros s [_ H]; exact H|apply ksim_fill]|].
    destruct (len (kc c) <=? length l * 4).
    - eapply ksim_bind; [eapply ksim_pre; [intros s [_ H]; exact H|apply ksim_push]|].
      intros ? ?; cbv beta. apply ksim_get. intros c1. eapply ksim_hstep; [eapply khdo_weaken; [intros s [H _]; exact H|intros b1 s H; exact H|apply khdo_flat]|].
      intros b1. eapply ksim_bind with (R := fun v _ => knewlist n v b1).
      { intros s HG Hn [Hc Hs]. destruct Hs as (E & Hs).
        assert (X : k_sort lt kf b1 s = match py_sorted_key lt kf (contents (kc c1)) with Ok l => k_write b1 l s | Err e => (Err e, s) end).
        { unfold k_sort, bind, k_cell, onbase, zoom, h_cell, liftr. destruct s as [h [o ks]]. cbn [fst snd kbase krows] in *. rewrite E.
          destruct (py_sorted_key lt kf (contents (kc c1))); reflexivity. }
        rewrite X. unfold liftr. change (concat (lists (kc c1))) with (contents (kc c1)). clear X.
        destruct (py_sorted_key lt kf (contents (kc c1))) as [v'|e]; cbn [fst snd].
        - destruct (khdo_write n b1 (contents (kc c1)) v' s HG Hn (conj E Hs)) as (y & s' & E' & Ev & G & F & X). rewrite E'. cbn.
          split; [exact Ev|]. split; [exact G|]. split; [exact F|exact X].
        - split; [reflexivity|]. split; [exact HG|]. split; [apply kframe_refl|reflexivity]. }
      intros v' _. apply ksimP_bind; [apply knewlist_stable|apply ksim_clear|]. intros _. apply ksim_fill.
    - eapply ksim_pre; [intros s [_ H]; exact H|]. apply (ksim_add_each n b l (length l) 0). lia.
  Qed.
  Lemma ksim_update_list n b v : ksim n (knewlist n v b) ksame (skl_update lt kf v) (k_update lt kf (HList b)).
  Proof. eapply ksim_pre; [|apply ksim_update]. intros s (E & _). exact E. Qed.

  Lemma ksim_drop_row pos : ksim0 (modifyR (fun s : skl V V => let! ls := deln (lists (kc s)) pos in Ok (on_kc (set_lists ls) s))) (k_drop_row pos).
  Proof.
    intros n. apply ksim_modifyR. intros [h [o ks]] [HN HF] Hn _. unfold k_drop_row, modifyR. unfold krefs in *.
    cbn [kview kc view lists fst snd kbase krows] in *. rewrite deln_map.
    destruct (deln (rows o) pos) as [ls|e] eqn:E; cbn [rbind]; [|auto]. split; [reflexivity|]. split; [|split; [|reflexivity]].
    - apply Forall_app in HF as [HF1 HF2]. rewrite Forall_forall in HF1. split; unfold krefs; cbn.
      + apply nodup_join; [eapply NoDup_deln; [exact E|exact (nodup_l _ _ HN)]|exact (nodup_r _ _ HN)|].
        intros r Hr. eapply nodup_disjoint; [exact HN|]. eapply In_deln; eassumption.
      + apply Forall_app. split; [|exact HF2]. apply Forall_forall. intros r Hr. apply HF1. eapply In_deln; eassumption.
    - split; cbn; [lia|]. unfold krefs. cbn. split; [reflexivity|]. intros r Hr. left. rewrite in_app_iff in *.
      destruct Hr as [Hr|Hr]; [left; eapply In_deln; eassumption|right; exact Hr].
  Qed.
  Lemma ksim_drop_keys pos : ksim0 (modifyR (fun s : skl V V => let! kss := deln (keys s) pos in Ok (set_keys kss s))) (k_drop_keys pos).
  Proof.
    intros n. apply ksim_modifyR. intros [h [o ks]] [HN HF] Hn _. unfold k_drop_keys, modifyR. unfold krefs in *.
    cbn [kview keys fst snd kbase krows] in *. rewrite deln_map.
    destruct (deln ks pos) as [ls|e] eqn:E; cbn [rbind]; [|auto]. split; [reflexivity|]. split; [|split; [|reflexivity]].
    - apply Forall_app in HF as [HF1 HF2]. rewrite Forall_forall in HF2. split; unfold krefs; cbn.
      + apply nodup_join; [exact (nodup_l _ _ HN)|eapply NoDup_deln; [exact E|exact (nodup_r _ _ HN)]|].
        intros r Hr Hk. eapply nodup_disjoint; [exact HN|exact Hr|]. eapply In_deln; eassumption.
      + apply Forall_app. split; [exact HF1|]. apply Forall_forall. intros r Hr. apply HF2. eapply In_deln; eassumption.
    - split; cbn; [lia|]. unfold krefs. cbn. split; [reflexivity|]. intros r Hr. left. rewrite in_app_iff in *.
      destruct Hr as [Hr|Hr]; [left; exact Hr|right; eapply In_deln; eassumption].
  Qed.
  (** [_keys[prev].extend(_keys[pos])], [_lists[prev].extend(_lists[pos])] *)
  Lemma ksim_join_keys p q :
    ksim0 (modifyR (fun s : skl V V => let! kp := getn (keys s) p in let! kss := updn (keys s) q (fun l => Ok (l ++ kp)) in Ok (set_keys kss s)))
      (modifyR (fun s : ST => let (h, o) := s in let! p := getn (krows o) p in let! q := getn (krows o) q in Ok (write h q (cell h q ++ cell h p), o))).
  Proof.
    intros n. apply ksim_modifyR. intros [h [o ks]] [HN HF] Hn _. unfold modifyR. unfold krefs in *.
    cbn [kview keys fst snd kbase krows] in *. apply Forall_app in HF as [HF1 HF2]. rewrite getn_map.
    destruct (getn ks p) as [a|e] eqn:E; cbn [rbind]; [|auto]. rewrite updn_cell by (try assumption; exact (nodup_r _ _ HN)).
    destruct (getn ks q) as [c|e] eqn:E'; cbn [rbind]; [|auto]. pose proof (getn_In _ _ _ E') as Hc. split; [|split].
    - unfold set_keys. cbn. do 2 f_equal. apply cells_same. intros r Hr. apply cell_write_other. intros ->. exact (nodup_disjoint _ _ c HN Hr Hc).
    - split; [exact HN|]. unfold krefs. cbn. rewrite length_write. apply Forall_app. split; assumption.
    - split; [|reflexivity]. split; [cbn; rewrite length_write; lia|]. split; [|intros r Hr; left; exact Hr].
      intros r _ Hr. apply cell_write_other. intros ->. apply Hr. unfold krefs. cbn. apply in_app_iff. right. exact Hc.
  Qed.
  Lemma ksim_join_rows p q :
    ksim0 (modifyR (fun s : skl V V => let! lp := getn (lists (kc s)) p in let! ls := updn (lists (kc s)) q (fun l => Ok (l ++ lp)) in Ok (on_kc (set_lists ls) s)))
      (modifyR (fun s : ST => let (h, o) := s in let! p := getn (rows (kbase o)) p in let! q := getn (rows (kbase o)) q in Ok (write h q (cell h q ++ cell h p), o))).
  Proof.
    intros n. apply ksim_modifyR. intros [h [o ks]] [HN HF] Hn _. unfold modifyR. unfold krefs in *.
    cbn [kview kc view lists fst snd kbase krows] in *. apply Forall_app in HF as [HF1 HF2]. rewrite getn_map.
    destruct (getn (rows o) p) as [a|e] eqn:E; cbn [rbind]; [|auto]. rewrite updn_cell by (try assumption; exact (nodup_l _ _ HN)).
    destruct (getn (rows o) q) as [c|e] eqn:E'; cbn [rbind]; [|auto]. pose proof (getn_In _ _ _ E') as Hc. split; [|split].
    - unfold on_kc, set_lists. cbn. f_equal. apply cells_same. intros r Hr. apply cell_write_other. intros ->. exact (nodup_disjoint _ _ c HN Hc Hr).
    - split; [exact HN|]. unfold krefs. cbn. rewrite length_write. apply Forall_app. split; assumption.
    - split; [|reflexivity]. split; [cbn; rewrite length_write; lia|]. split; [|intros r Hr; left; exact Hr].
      intros r _ Hr. apply cell_write_other. intros ->. apply Hr. unfold krefs. cbn. apply in_app_iff. left. exact Hc.
  Qed.

  Lemma ksim_delete pos idx : ksim0 (skl_delete (V:=V) (K:=V) pos idx) (k_delete pos idx).
  Proof.
    intros n. unfold skl_delete, k_delete. apply ksimn_bind; [apply ksim_keys; reflexivity|]. intros _.
    apply ksimn_bind; [apply ksim_row; reflexivity|]. intros _.
    apply ksimn_bind.
    { apply ksim_reading, kkeeps_modifyR. intros c c'. destruct (subc _ _); [|discriminate]. cbn. intros H. apply ok_inj in H as <-. reflexivity. }
    intros _. apply ksim_get2. intros c. apply ksim_any. apply ksimn_bind; [apply ksim_liftr|]. intros kp. cbv zeta.
    assert (X1 : forall p m, ksim n kany ksame (modifyR (fun s : skl V V => let! m := getlast m in let! ms := setn (maxes (kc s)) p m in Ok (on_kc (set_maxes ms) s)))
      (kreading (modifyR (fun s : skl V V => let! m := getlast m in let! ms := setn (maxes (kc s)) p m in Ok (on_kc (set_maxes ms) s))))).
    { intros p m. apply ksim_reading, kkeeps_modifyR. intros c1 c2. destruct (getlast m); [|discriminate]. cbn [rbind].
      destruct (setn _ _ _); [|discriminate]. cbn. intros H. apply ok_inj in H as <-. reflexivity. }
    destruct (load (kc c) / 2 <? length kp).
    { apply ksimn_bind; [apply X1|]. intros _. apply ksim_reading, kkeeps_modifyR. intros c1 c2. unfold index_dec.
      destruct (is_nil _); cbn [rbind]; [intros H; apply ok_inj in H as <-; destruct c1; reflexivity|].
      destruct (index_walk _ _ _); [|discriminate]. cbn. intros H. apply ok_inj in H as <-. reflexivity. }
    destruct (1 <? length (keys c)).
    - set (p := if pos =? 0 then pos + 1 else pos). apply ksimn_bind; [apply ksim_join_keys|].
      intros _. apply ksimn_bind; [apply ksim_join_rows|]. intros _. apply ksimn_bind.
      { apply ksim_reading, kkeeps_modifyR. intros c1 c2. destruct (getn _ _); [|discriminate]. cbn [rbind]. destruct (getlast _); [|discriminate].
        cbn [rbind]. destruct (setn _ _ _); [|discriminate]. cbn. intros H. apply ok_inj in H as <-. reflexivity. }
      intros _. apply ksimn_bind; [apply ksim_drop_row|]. intros _. apply ksimn_bind; [apply ksim_drop_keys|]. intros _.
      apply ksimn_bind; [apply ksim_maxes|]. intros _.
      apply ksimn_bind; [apply ksim_reading, kkeeps_modify; reflexivity|]. intros _. apply ksim_expand.
    - destruct (0 <? length kp); [apply X1|].
      apply ksimn_bind; [apply ksim_drop_row|]. intros _. apply ksimn_bind; [apply ksim_drop_keys|]. intros _.
      apply ksimn_bind; [apply ksim_maxes|]. intros _.
      apply ksim_reading, kkeeps_modify; reflexivity.
  Qed.
End Steps.

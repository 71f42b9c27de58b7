(** * The heap methods of SortedList simulate those of Model.v *)
From Verif Require Import PyBase Model Spec History ModelHeap HeapFacts.
Local Unset Implicit Arguments.

Lemma map_insn {A B} (f : A -> B) l i x : map f (insn l i x) = insn (map f l) i (f x).
Proof. unfold insn. rewrite map_app. cbn. rewrite firstn_map, skipn_map. reflexivity. Qed.
Lemma In_insn {A} (l : list A) i x y : In y (insn l i x) <-> y = x \/ In y l.
Proof.
  unfold insn. rewrite in_app_iff. cbn. rewrite <- (firstn_skipn i l) at 3. rewrite in_app_iff. intuition congruence.
Qed.
Lemma NoDup_insn {A} (l : list A) i x : NoDup l -> ~ In x l -> NoDup (insn l i x).
Proof.
  intros HN HI. unfold insn. apply (NoDup_Add (Add_app x (firstn i l) (skipn i l))).
  rewrite firstn_skipn. split; assumption.
Qed.
Lemma In_cut {A} (l : list A) i x : In x (firstn i l ++ skipn (S i) l) -> In x l.
Proof.
  rewrite in_app_iff. intros [H|H].
  - rewrite <- (firstn_skipn i l). apply in_app_iff. left. exact H.
  - rewrite <- (firstn_skipn (S i) l). apply in_app_iff. right. exact H.
Qed.
Lemma NoDup_cut {A} (l : list A) : NoDup l -> forall i, NoDup (firstn i l ++ skipn (S i) l).
Proof.
  intros H. induction H as [|x l Hx H IH]; intros [|i]; cbn; try constructor; try assumption.
  - intros Hi. apply Hx. eapply In_cut, Hi.
  - apply IH.
Qed.
Lemma In_deln {A} (l l' : list A) i x : deln l i = Ok l' -> In x l' -> In x l.
Proof. unfold deln. destruct (i <? length l); [|discriminate]. intros H. apply ok_inj in H as <-. apply In_cut. Qed.
Lemma NoDup_deln {A} (l l' : list A) i : deln l i = Ok l' -> NoDup l -> NoDup l'.
Proof. unfold deln. destruct (i <? length l); [|discriminate]. intros H HN. apply ok_inj in H as <-. apply NoDup_cut, HN. Qed.
Lemma deln_map {A B} (f : A -> B) l i : deln (map f l) i = (let! x := deln l i in Ok (map f x)).
Proof.
  unfold deln. rewrite map_length. destruct (i <? length l); [|reflexivity]. cbn [rbind]. rewrite map_app, firstn_map, skipn_map. reflexivity.
Qed.
Lemma slicen_map {A B} (f : A -> B) l a b : slicen (map f l) a b = map f (slicen l a b).
Proof. unfold slicen. rewrite skipn_map, firstn_map. reflexivity. Qed.
Lemma In_slicen {A} (l : list A) a b x : In x (slicen l a b) -> In x l.
Proof.
  unfold slicen. intros H. rewrite <- (firstn_skipn a l). apply in_app_iff. right.
  rewrite <- (firstn_skipn (b - a) (skipn a l)). apply in_app_iff. left. exact H.
Qed.

Section Writers.
  Context {V : Type}.
  Variables lt eq : V -> V -> res bool.
  Variable dflt : nat.
  Notation ST := (heap V * hsl V)%type.

  (** [b] is a list of its own, with content [v], made after there were [n] lists. *)
  Definition newlist (n : nat) (v : list V) (b : ref) (s : ST) : Prop :=
    cell (fst s) b = v /\ b < length (fst s) /\ ~ In b (rows (snd s)) /\ n <= b.
  Lemma newlist_stable n v b : stable (newlist n v b).
  Proof.
    intros s s' HG (L & C & R) (E & Hb & Hn & Hnb). split; [rewrite C by assumption; exact E|]. split; [lia|]. split; [|exact Hnb].
    intros H. destruct (R b H); [contradiction|lia].
  Qed.
  Lemma stable_and (P Q : ST -> Prop) : stable P -> stable Q -> stable (fun s => P s /\ Q s).
  Proof. intros HP HQ s s' HG F [A B]. split; [exact (HP s s' HG F A)|exact (HQ s s' HG F B)]. Qed.
  Lemma any_stable : stable (any (V:=V)). Proof. intros s s' _ _ _. exact I. Qed.

  (** ** Single steps *)
  Lemma sim_change pos f (fc : core V V -> res (core V V)) :
    (forall c, fc c = let! ls := updn (lists c) pos f in Ok (set_lists ls c)) ->
    sim0 (modifyR fc) (h_change pos f).
  Proof.
    intros Hf n. apply sim_modifyR. intros [h o] [HN HF] _ _. rewrite Hf. unfold h_change, modifyR. cbn [view lists fst snd] in *.
    rewrite updn_cell by assumption. destruct (getn (rows o) pos) as [p|e] eqn:E; cbn; [|auto].
    destruct (f (cell h p)) as [l|e]; cbn; [|auto]. split; [reflexivity|]. split.
    - split; [exact HN|]. cbn. rewrite length_write. exact HF.
    - split; [|reflexivity]. split; [cbn; rewrite length_write; lia|]. split; [|intros r Hr; left; exact Hr].
      intros r _ Hr. apply cell_write_other. intros ->. apply Hr. eapply getn_In, E.
  Qed.
  Lemma sim_clear : sim0 (sl_clear (V:=V)) h_clear.
  Proof.
    intros n [h o] _ _ _. cbn. split; [reflexivity|]. split; [split; constructor|]. split; [|reflexivity].
    split; [cbn; lia|]. split; [reflexivity|]. intros r [].
  Qed.
  Lemma index_inc_lists (c c' : core V V) pos : index_inc c pos = Ok c' -> lists c' = lists c.
  Proof.
    unfold index_inc. destruct (is_nil _); [intros H; apply ok_inj in H as <-; reflexivity|].
    destruct (index_walk _ _ _); [|discriminate]. cbn. intros H. apply ok_inj in H as <-. reflexivity.
  Qed.
  Lemma put_frame n c (s : ST) : framen n s (put c s).
  Proof. destruct s as [h o]. split; [cbn; lia|]. split; [reflexivity|]. intros r H. left. exact H. Qed.
  Lemma put_good c (s : ST) : good s -> good (put c s).
  Proof. destruct s as [h o]. auto. Qed.

  Lemma sim_expand pos : sim0 (sl_expand (V:=V) pos) (h_expand pos).
  Proof.
    intros n. apply sim_modifyR. intros [h o] [HN HF] Hl _. unfold h_expand, modifyR. cbn [fst snd] in HN, HF, Hl.
    cbn [view lists load maxes]. rewrite getn_map. destruct (getn (rows o) pos) as [p|e] eqn:E; cbn [rbind]; [|auto].
    assert (Hp : p < length h) by (rewrite Forall_forall in HF; apply HF; eapply getn_In, E).
    destruct (hload o * 2 <? length (cell h p)).
    - unfold setn at 1. rewrite updn_cell by assumption. rewrite E. cbn [rbind alloc].
      assert (E1 : cell (h ++ [skipn (hload o) (cell h p)]) p = cell h p) by (apply cell_app_old, Hp).
      rewrite E1. set (k := firstn (hload o) (cell h p)). set (hf := skipn (hload o) (cell h p)).
      rewrite cell_write_same by (rewrite app_length; lia).
      destruct (getlast k) as [m|e]; cbn [rbind]; [|auto].
      destruct (setn (hmaxes o) pos m) as [ms|e]; cbn [rbind]; [|auto].
      rewrite cell_write_other by lia. rewrite cell_app_new.
      destruct (getlast hf) as [hm|e]; cbn [rbind]; [|auto].
      split; [|split; [|split; [|reflexivity]]].
      + unfold view, set_index, set_maxes, set_lists. cbn. f_equal. rewrite map_insn.
        rewrite cell_write_other by lia. rewrite cell_app_new. f_equal. apply cells_same. intros r Hr.
        rewrite Forall_forall in HF. specialize (HF r Hr). destruct (Nat.eq_dec r p) as [->|Hn].
        * rewrite !cell_write_same by (try rewrite app_length; lia). reflexivity.
        * rewrite !cell_write_other by assumption. apply cell_app_old, HF.
      + split; cbn.
        * apply NoDup_insn; [exact HN|]. intros H. rewrite Forall_forall in HF. specialize (HF _ H). lia.
        * apply Forall_forall. intros r Hr. apply In_insn in Hr. rewrite length_write, app_length. cbn.
          destruct Hr as [->|Hr]; [lia|]. rewrite Forall_forall in HF. specialize (HF _ Hr). lia.
      + split; cbn; [rewrite length_write, app_length; cbn; lia|]. split.
        * intros r Hr Hn. rewrite cell_write_other; [apply cell_app_old; lia|]. intros ->. apply Hn. eapply getn_In, E.
        * intros r Hr. apply In_insn in Hr. destruct Hr as [->|Hr]; [right; lia|left; exact Hr].
    - destruct (index_inc _ pos) as [c|e] eqn:Ei; cbn [rbind]; [|auto].
      split; [apply view_put; exact (index_inc_lists _ _ _ Ei)|]. split; [apply put_good; split; assumption|].
      split; [apply put_frame|reflexivity].
  Qed.

  (** ** Steps of the heap program alone *)
  Definition hdo {B} (n : nat) (P : ST -> Prop) (hm : M ST B) (R : B -> ST -> Prop) : Prop :=
    forall s, good s -> n <= length (fst s) -> P s ->
      exists b s', hm s = (Ok b, s') /\ view s' = view s /\ good s' /\ framen n s s' /\ R b s'.
  Lemma sim_hstep {A B C} n (P : ST -> Prop) (R : B -> ST -> Prop) (Q : A -> C -> ST -> Prop) m hm hk :
    hdo n P hm R -> (forall b, sim n (R b) Q m (hk b)) -> sim n P Q m (bind hm hk).
  Proof.
    intros H1 H2 s HG Hn HP. destruct (H1 s HG Hn HP) as (b & s' & E & Ev & G & F & X). unfold bind. rewrite E.
    destruct (H2 b s' G ltac:(destruct F; lia) X) as (E' & G' & F' & X'). rewrite Ev in E', X'. split; [exact E'|]. split; [exact G'|].
    split; [eapply frame_trans; eassumption|exact X'].
  Qed.
  Lemma hdo_frame {B} n (P Q : ST -> Prop) (hm : M ST B) R : stable Q -> (forall k, hdo k P hm R) ->
    hdo n (fun s => P s /\ Q s) hm (fun b s => R b s /\ Q s).
  Proof.
    intros HQ H s HG Hn [HP Hs]. destruct (H (length (fst s)) s HG (le_n _) HP) as (b & s' & E & Ev & G & F & X). exists b, s'.
    split; [exact E|]. split; [exact Ev|]. split; [exact G|]. split; [eapply frame_le; eassumption|].
    split; [exact X|exact (HQ s s' HG F Hs)].
  Qed.
  Lemma hdo_weaken {B} n (P P' : ST -> Prop) (hm : M ST B) (R R' : B -> ST -> Prop) :
    (forall s, P' s -> P s) -> (forall b s, R b s -> R' b s) -> hdo n P hm R -> hdo n P' hm R'.
  Proof.
    intros HP HR H s HG Hn Hs. destruct (H s HG Hn (HP s Hs)) as (b & s' & E & Ev & G & F & X). exists b, s'.
    repeat (split; [assumption|]). auto.
  Qed.
  Lemma hdo_view {B} n (P : ST -> Prop) c (hm : M ST B) R :
    hdo n (fun s => view s = c /\ P s) hm R -> hdo n (fun s => view s = c /\ P s) hm (fun b s => view s = c /\ R b s).
  Proof.
    intros H s HG Hn [<- Hs]. destruct (H s HG Hn (conj eq_refl Hs)) as (b & s' & E & Ev & G & F & X). exists b, s'.
    repeat (split; [assumption|]). exact X.
  Qed.
  Lemma hdo_bind {A B} n (P : ST -> Prop) (hm : M ST A) R (hk : A -> M ST B) Q :
    hdo n P hm R -> (forall a, hdo n (R a) (hk a) Q) -> hdo n P (bind hm hk) Q.
  Proof.
    intros H1 H2 s HG Hn Hs. destruct (H1 s HG Hn Hs) as (b & s' & E & Ev & G & F & X).
    destruct (H2 b s' G ltac:(destruct F; lia) X) as (b2 & s2 & E2 & Ev2 & G2 & F2 & X2). exists b2, s2. unfold bind. rewrite E. split; [exact E2|].
    split; [congruence|]. split; [exact G2|]. split; [eapply frame_trans; eassumption|exact X2].
  Qed.
  Lemma hdo_ret {B} n (P : ST -> Prop) (b : B) : hdo n P (ret b) (fun x s => x = b /\ P s).
  Proof. intros s HG Hn Hs. exists b, s. split; [reflexivity|]. split; [reflexivity|]. split; [exact HG|]. split; [apply frame_refl|]. auto. Qed.
  Lemma hdo_alloc n (P : ST -> Prop) v : stable P -> hdo n P (h_alloc v) (fun b s => newlist n v b s /\ P s).
  Proof.
    intros HS [h o] [HN HF] Hn Hs. exists (length h), (h ++ [v], o). cbn [fst snd] in *. split; [reflexivity|].
    assert (F : frame (h, o) (h ++ [v], o)).
    { split; cbn; [rewrite app_length; lia|]. split; [intros r Hr _; apply cell_app_old, Hr|]. intros r Hr. left. exact Hr. }
    split; [|split; [|split; [eapply frame_le; [|exact F]; exact Hn|split]]].
    - cbn. f_equal. apply cells_same. intros r Hr. apply cell_app_old. rewrite Forall_forall in HF. apply HF, Hr.
    - split; [exact HN|]. eapply Forall_impl; [|exact HF]. intros r Hr. cbn in *. rewrite app_length. lia.
    - split; [apply cell_app_new|]. split; [cbn; rewrite app_length; cbn; lia|]. split; [|exact Hn].
      cbn. intros H. rewrite Forall_forall in HF. specialize (HF _ H). lia.
    - refine (HS (h, o) _ _ F Hs). split; assumption.
  Qed.
  Lemma hdo_cell n (P : ST -> Prop) r v : (forall s, P s -> cell (fst s) r = v) -> hdo n P (h_cell r) (fun l s => l = v /\ P s).
  Proof.
    intros H s HG Hn Hs. exists (cell (fst s) r), s. split; [reflexivity|]. split; [reflexivity|]. split; [exact HG|]. split; [apply frame_refl|].
    split; [apply H, Hs|exact Hs].
  Qed.
  Lemma view_local (h h' : heap V) o : (forall r, In r (rows o) -> cell h' r = cell h r) -> view (h', o) = view (h, o).
  Proof. intros H. cbn. f_equal. apply cells_same, H. Qed.

  (** Writing to a list of its own. *)
  Lemma hdo_local {B} n b v x (hm : M ST B) y : (forall s, newlist n v b s -> exists h, hm s = (Ok y, (h, snd s)) /\
      length h = length (fst s) /\ cell h b = x /\ forall r, r <> b -> cell h r = cell (fst s) r) ->
    hdo n (newlist n v b) hm (fun z s => z = y /\ newlist n x b s).
  Proof.
    intros H [h o] [HN HF] Hn Hs. destruct (H _ Hs) as (h' & E & L & C & X). destruct Hs as (Eb & Hb & Hi & Hnb). cbn [fst snd] in *.
    exists y, (h', o). split; [exact E|]. split; [apply view_local; intros r Hr; apply X; congruence|].
    split; [split; cbn; [exact HN|rewrite L; exact HF]|]. split.
    - split; cbn; [lia|]. split; [|intros r Hr; left; exact Hr]. intros r Hr _. apply X. lia.
    - split; [reflexivity|]. split; [exact C|]. split; [cbn; lia|]. split; [exact Hi|exact Hnb].
  Qed.
  Lemma hdo_write n b v x : hdo n (newlist n v b) (h_write b x) (fun _ s => newlist n x b s).
  Proof.
    eapply hdo_weaken; [intros s H; exact H| |eapply (hdo_local n b v x _ tt)]; [intros z s [_ H]; exact H|].
    intros s (E & Hb & _). exists (write (fst s) b x). split; [reflexivity|]. split; [apply length_write|].
    split; [apply cell_write_same, Hb|]. intros r Hr. apply cell_write_other, Hr.
  Qed.
  Lemma hdo_reduce n b v (rs : hsl V -> list ref) x (P : ST -> Prop) :
    (forall s, P s -> newlist n v b s) ->
    (forall s, P s -> ~ In b (rs (snd s)) /\ concat (map (cell (fst s)) (rs (snd s))) = x) ->
    hdo n P (modify (fun s : ST => (reduce_iadd (rs (snd s)) b (fst s), snd s))) (fun _ s => newlist n (v ++ x) b s).
  Proof.
    intros HP HX [h o] [HN HF] Hn Hs. destruct (HX _ Hs) as [Hb Ex]. destruct (HP _ Hs) as (Eb & Hl & Hi & Hnb). cbn [fst snd] in *.
    eexists tt, (_, o). split; [reflexivity|]. cbn [fst snd].
    split; [apply view_local; intros r Hr; apply reduce_other; congruence|].
    split; [split; cbn; [exact HN|rewrite length_reduce; exact HF]|]. split.
    - split; cbn; [rewrite length_reduce; lia|]. split; [|intros r Hr; left; exact Hr]. intros r Hr _. apply reduce_other. lia.
    - split; cbn; [rewrite reduce_acc by assumption; congruence|]. split; [rewrite length_reduce; exact Hl|]. split; assumption.
  Qed.
  (** [reduce(iadd, self._lists, [])] *)
  Lemma hdo_flat n c : hdo n (fun s => view s = c) h_flat (fun b s => view s = c /\ newlist n (contents c) b s).
  Proof.
    assert (X : hdo n (fun s => view s = c /\ any s) h_flat (fun b s => view s = c /\ newlist n (contents c) b s)).
    { apply hdo_view. unfold h_flat. eapply hdo_bind.
      - apply hdo_view. eapply hdo_weaken; [| |apply (hdo_alloc n any []), any_stable]; [intros; exact I|]. intros b s H. exact H.
      - intros b. eapply hdo_bind.
        + apply (hdo_reduce n b [] (@rows V) (contents c)); [intros s (_ & H & _); exact H|].
          intros [h o] (<- & (_ & _ & H & _) & _). split; [exact H|reflexivity].
        + intros u. eapply hdo_weaken; [intros s H; exact H| |apply hdo_ret]. intros x s [-> H]. exact H. }
    eapply hdo_weaken; [| |exact X]; [intros s H; split; [exact H|exact I]|auto].
  Qed.
  (** The value program takes a look at the state. *)
  Lemma sim_get {A B} n (P : ST -> Prop) (Q : A -> B -> ST -> Prop) k hm :
    (forall c, sim n (fun s => view s = c /\ P s) Q (k c) hm) -> sim n P Q (bind get k) hm.
  Proof. intros H s HG Hn HP. exact (H (view s) s HG Hn (conj eq_refl HP)). Qed.
  Lemma sim_get2 {A B} n (P : ST -> Prop) (Q : A -> B -> ST -> Prop) k hk :
    (forall c, sim n (fun s => view s = c /\ P s) Q (k c) (hk c)) -> sim n P Q (bind get k) (bind (reading get) hk).
  Proof.
    intros H s HG Hn HP. pose proof (H (view s) s HG Hn (conj eq_refl HP)) as X. destruct s as [h o].
    unfold bind, reading, zoom. cbn [get]. rewrite (eq_refl : put (view (h, o)) (h, o) = (h, mkhsl (rows o) (hmaxes o) (hindex o) (hoffset o) (hlen o) (hload o))).
    destruct o; exact X.
  Qed.

  Lemma sim_pure {A B} n (phi : Prop) (P : ST -> Prop) (Q : A -> B -> ST -> Prop) m hm :
    (phi -> sim n P Q m hm) -> sim n (fun s => phi /\ P s) Q m hm.
  Proof. intros H s HG Hn [Hp HP]. exact (H Hp s HG Hn HP). Qed.
  Lemma sim_pre {A B} n (P P' : ST -> Prop) (Q : A -> B -> ST -> Prop) m hm :
    (forall s, P' s -> P s) -> sim n P Q m hm -> sim n P' Q m hm.
  Proof. intros H. apply sim_weaken; auto. Qed.
  (** Reading a list of its own. *)
  Lemma sim_cell {A B} n (P : ST -> Prop) b v (Q : A -> B -> ST -> Prop) m hk :
    (forall s, P s -> cell (fst s) b = v) -> sim n P Q m (hk v) -> sim n P Q m (bind (h_cell b) hk).
  Proof. intros HP H s HG Hn Hs. unfold bind, h_cell. rewrite (HP s Hs). exact (H s HG Hn Hs). Qed.

  (** ** Methods *)
  Lemma sim_add v : sim0 (sl_add lt v) (h_add lt v).
  Proof.
    intros n. unfold sl_add, h_add. apply sim_get2. intros c. apply sim_any. apply simn_bind.
    2:{ intros _. apply sim_reading, keeps_modify. reflexivity. }
    destruct (is_nil (maxes c)).
    - intros [h o] [HN HF] Hn _. cbn. cbn in HN, HF, Hn. split; [|split; [|split; [|reflexivity]]].
      + unfold set_maxes, set_lists, view. cbn. f_equal. rewrite map_app. f_equal; [|cbn; rewrite cell_app_new; reflexivity].
        apply cells_same. intros r Hr. apply cell_app_old. rewrite Forall_forall in HF. apply HF, Hr.
      + split; cbn.
        * apply (NoDup_Add (a:=length h) (l:=rows o)); [rewrite <- (app_nil_r (rows o)) at 1; apply Add_app|].
          split; [exact HN|]. intros H. rewrite Forall_forall in HF. specialize (HF _ H). lia.
        * rewrite app_length. cbn. apply Forall_app. split; [|repeat constructor; lia]. eapply Forall_impl; [|exact HF]. cbn. intros; lia.
      + split; cbn; [rewrite app_length; lia|]. split; [intros r Hr _; apply cell_app_old; lia|].
        intros r Hr. apply in_app_iff in Hr as [Hr|[<-|[]]]; [left; exact Hr|right; exact Hn].
    - apply simn_bind; [apply sim_liftr|]. intros pos. destruct (pos =? length (maxes c)).
      + cbv zeta. apply simn_bind; [apply sim_change; reflexivity|]. intros _.
        apply simn_bind; [|intros _; apply sim_expand]. apply sim_reading, keeps_modifyR. intros c1 c2.
        destruct (setn _ _ _); [|discriminate]. cbn. intros H. apply ok_inj in H as <-. reflexivity.
      + apply simn_bind; [apply sim_change; reflexivity|]. intros _. apply sim_expand.
  Qed.

  Lemma sim_fill n b v : sim n (newlist n v b) same (sl_fill v) (h_fill b).
  Proof.
    apply sim_modifyR. intros [h o] [HN HF] Hn (E & Hb & Hi & Hnb). unfold h_fill, modifyR. cbn [fst snd view load lists] in *. rewrite E.
    destruct (chunks (hload o) v) as [cs|e]; cbn [rbind]; [|auto]. rewrite alloc_all_eq, map_app, cells_app_new.
    rewrite (cells_same h (h ++ cs) (rows o)) by (intros r Hr; apply cell_app_old; rewrite Forall_forall in HF; apply HF, Hr).
    destruct (mapR getlast (map (cell h) (rows o) ++ cs)) as [ms|e]; cbn [rbind]; [|auto].
    rewrite cell_app_old by exact Hb. rewrite E. split; [|split; [|split; [|reflexivity]]].
    - unfold view, set_index, set_len, set_maxes, set_lists. cbn. f_equal. rewrite map_app, cells_app_new. f_equal.
      apply cells_same. intros r Hr. apply cell_app_old. rewrite Forall_forall in HF. apply HF, Hr.
    - split; cbn.
      + rewrite Forall_forall in HF. clear - HN HF. revert HN HF. generalize (rows o) as l. induction l as [|x l IH]; intros HN HF; cbn; [apply seq_NoDup|].
        inversion HN; subst. constructor; [|apply IH; [assumption|intros y Hy; apply HF; right; exact Hy]].
        rewrite in_app_iff. intros [H|H]; [contradiction|]. apply in_seq in H. specialize (HF x (or_introl eq_refl)). lia.
      + apply Forall_app. rewrite app_length. split.
        * eapply Forall_impl; [|exact HF]. cbn. intros; lia.
        * apply Forall_forall. intros r Hr. apply in_seq in Hr. lia.
    - split; cbn; [rewrite app_length; lia|]. split; [intros r Hr _; apply cell_app_old; lia|].
      intros r Hr. apply in_app_iff in Hr as [Hr|Hr]; [left; exact Hr|]. apply in_seq in Hr. right. lia.
  Qed.

  Lemma sim_add_each n b v : forall f i, f + i = length v ->
    sim n (newlist n v b) same (forM (sl_add lt) (skipn i v)) (h_add_each lt f b i).
  Proof.
    induction f as [|f IH]; intros i Hf.
    - rewrite skipn_all2 by lia. apply sim_any, sim_ret.
    - cbn [h_add_each]. apply (sim_cell n _ b v); [intros s (E & _); exact E|].
      rewrite (proj2 (Nat.ltb_lt i (length v))) by lia. unfold getn. destruct (nth_error v i) as [x|] eqn:Ex.
      2:{ apply nth_error_None in Ex. lia. }
      assert (Es : skipn i v = x :: skipn (i + 1) v).
      { clear - Ex. revert i Ex. induction v as [|y v IH]; intros [|i] E; try discriminate; cbn in *; [congruence|]. apply IH, E. }
      rewrite Es. cbn [forM]. eapply (sim_point n _ _ _ _ _ (h_add lt x;;; h_add_each lt f b (i + 1))); [reflexivity|reflexivity|].
      apply simP_bind; [apply newlist_stable|apply sim_add|]. intros _. apply IH. lia.
  Qed.

  (** The argument is read at the start. *)
  Definition gives (a : harg) (v : list V) : ST -> Prop := fun s => elems (fst s) a = v.

  Lemma sim_update n a v : sim n (gives a v) same (sl_update lt v) (h_update lt a).
  Proof.
    unfold sl_update, h_update. apply sim_bind with (R := fun l b s => newlist n l b s).
    { intros s HG Hn Ha. unfold gives in Ha. unfold liftr, h_sorted. rewrite Ha. destruct (py_sorted lt v) as [l|e]; cbn [fst snd].
      - destruct (hdo_alloc n any l any_stable s HG Hn I) as (b & s' & E & Ev & G & F & X & _). rewrite E. cbn.
        split; [exact Ev|]. split; [exact G|]. split; [exact F|exact X].
      - split; [reflexivity|]. split; [exact HG|]. split; [apply frame_refl|reflexivity]. }
    intros l b. apply (sim_cell n _ b l); [intros s (E & _); exact E|].
    apply sim_get2. intros c. destruct (is_nil (maxes c)); [eapply sim_pre; [intros s [_ H]; exact H|apply sim_fill]|].
    destruct (len c <=? length l * 4).
    - eapply sim_bind with (R := fun _ _ => any).
      { intros [h o] [HN HF] Hn (_ & E & Hb & Hi & Hnb). cbn in *. split; [|split; [|split; [|exact I]]].
        - unfold set_lists, view. cbn. f_equal. rewrite map_app. cbn. rewrite E. reflexivity.
        - split; cbn.
          + apply (NoDup_Add (a:=b) (l:=rows o)); [rewrite <- (app_nil_r (rows o)) at 1; apply Add_app|]. split; assumption.
          + apply Forall_app. split; [exact HF|repeat constructor; exact Hb].
        - split; cbn; [lia|]. split; [reflexivity|]. intros r Hr. apply in_app_iff in Hr as [Hr|[<-|[]]]; [left; exact Hr|right; exact Hnb]. }
      intros _ _. apply sim_get. intros c1. eapply sim_hstep; [eapply hdo_weaken; [intros s [H _]; exact H|intros b1 s H; exact H|apply hdo_flat]|].
      intros b1. eapply sim_bind with (R := fun v _ => newlist n v b1).
      { intros s HG Hn [Hc Hs]. destruct Hs as (E & Hs).
        assert (X : h_sort lt b1 s = match py_sorted lt (contents c1) with Ok l => h_write b1 l s | Err e => (Err e, s) end).
        { unfold h_sort, bind, h_cell, liftr. rewrite E. destruct (py_sorted lt (contents c1)); reflexivity. }
        rewrite X. unfold liftr. change (concat (lists c1)) with (contents c1). clear X.
        destruct (py_sorted lt (contents c1)) as [v'|e]; cbn [fst snd].
        - destruct (hdo_write n b1 (contents c1) v' s HG Hn (conj E Hs)) as (y & s' & E' & Ev & G & F & X). rewrite E'. cbn.
          split; [exact Ev|]. split; [exact G|]. split; [exact F|exact X].
        - split; [reflexivity|]. split; [exact HG|]. split; [apply frame_refl|reflexivity]. }
      intros v' _. apply simP_bind; [apply newlist_stable|apply sim_clear|]. intros _. apply sim_fill.
    - eapply sim_pre; [intros s [_ H]; exact H|]. apply (sim_add_each n b l (length l) 0). lia.
  Qed.
  Lemma sim_update0 v (hm : harg) : (forall s, gives hm v s) -> sim0 (sl_update lt v) (h_update lt hm).
  Proof. intros H n. eapply sim_pre; [|apply sim_update]. intros s _. apply H. Qed.
  Lemma sim_update_list n b v : sim n (newlist n v b) same (sl_update lt v) (h_update lt (HList b)).
  Proof. eapply sim_pre; [|apply sim_update]. intros s (E & _). exact E. Qed.

  Lemma sim_delrow pos (R : unit -> unit -> ST -> Prop) n : (forall s, R tt tt s) ->
    sim n any R (modifyR (fun c => let! ls := deln (lists c) pos in Ok (set_lists ls c)))
         (modifyR (fun s : ST => let! ls := deln (rows (snd s)) pos in Ok (fst s, set_rows ls (snd s)))).
  Proof.
    intros HR. apply sim_modifyR. intros [h o] [HN HF] Hn _. unfold modifyR. cbn [view lists fst snd] in *. rewrite deln_map.
    destruct (deln (rows o) pos) as [ls|e] eqn:E; cbn [rbind]; [|auto]. split; [reflexivity|]. split; [|split; [|apply HR]].
    - split; cbn; [eapply NoDup_deln; eassumption|]. apply Forall_forall. intros r Hr. rewrite Forall_forall in HF. apply HF.
      eapply In_deln; eassumption.
    - split; cbn; [lia|]. split; [reflexivity|]. intros r Hr. left. eapply In_deln; eassumption.
  Qed.
  Lemma keeps_maxes (f : core V V -> res (list V)) : keeps (modifyR (fun c => let! ms := f c in Ok (set_maxes ms c))).
  Proof. apply keeps_modifyR. intros c c'. destruct (f c); [|discriminate]. cbn. intros H. apply ok_inj in H as <-. reflexivity. Qed.

  Lemma sim_delete pos idx : sim0 (sl_delete (V:=V) pos idx) (h_delete pos idx).
  Proof.
    intros n. unfold sl_delete, h_delete. apply simn_bind; [apply sim_change; reflexivity|]. intros _.
    apply simn_bind.
    { apply sim_reading, keeps_modifyR. intros c c'. destruct (subc _ _); [|discriminate]. cbn. intros H. apply ok_inj in H as <-. reflexivity. }
    intros _. apply sim_get2. intros c. apply sim_any. apply simn_bind; [apply sim_liftr|]. intros lp. cbv zeta.
    assert (X1 : forall p m, sim n any same (modifyR (fun c : core V V => let! m := getlast m in let! ms := setn (maxes c) p m in Ok (set_maxes ms c)))
      (reading (modifyR (fun c : core V V => let! m := getlast m in let! ms := setn (maxes c) p m in Ok (set_maxes ms c))))).
    { intros p m. apply sim_reading, keeps_modifyR. intros c1 c2. destruct (getlast m); [|discriminate]. cbn [rbind].
      destruct (setn _ _ _); [|discriminate]. cbn. intros H. apply ok_inj in H as <-. reflexivity. }
    destruct (load c / 2 <? length lp).
    { apply simn_bind; [apply X1|]. intros _. apply sim_reading, keeps_index_dec. }
    destruct (1 <? length (lists c)).
    - set (p := if pos =? 0 then pos + 1 else pos). apply simn_bind.
      { apply sim_modifyR. intros [h o] [HN HF] Hn _. unfold modifyR. cbn [view lists fst snd] in *. rewrite getn_map.
        destruct (getn (rows o) p) as [a|e] eqn:E; cbn [rbind]; [|auto]. rewrite updn_cell by assumption.
        destruct (getn (rows o) (p - 1)) as [q|e] eqn:E'; cbn [rbind]; [|auto]. split; [reflexivity|]. split.
        - split; [exact HN|]. cbn. rewrite length_write. exact HF.
        - split; [|reflexivity]. split; [cbn; rewrite length_write; lia|]. split; [|intros r Hr; left; exact Hr].
          intros r _ Hr. apply cell_write_other. intros ->. apply Hr. eapply getn_In, E'. }
      intros _. apply simn_bind.
      { apply sim_reading, keeps_modifyR. intros c1 c2. destruct (getn _ _); [|discriminate]. cbn [rbind]. destruct (getlast _); [|discriminate].
        cbn [rbind]. destruct (setn _ _ _); [|discriminate]. cbn. intros H. apply ok_inj in H as <-. reflexivity. }
      intros _. apply simn_bind; [apply sim_delrow; reflexivity|]. intros _.
      apply simn_bind; [apply sim_reading, keeps_maxes|]. intros _.
      apply simn_bind; [apply sim_reading, keeps_modify; reflexivity|]. intros _. apply sim_expand.
    - destruct (0 <? length lp); [apply X1|].
      apply simn_bind; [apply sim_delrow; reflexivity|]. intros _.
      apply simn_bind; [apply sim_reading, keeps_maxes|]. intros _.
      apply sim_reading, keeps_modify; reflexivity.
  Qed.

  Lemma oncore_sl {A} (m : M (core V V) A) c : oncore (sl_vt lt) m c = m c.
  Proof. unfold oncore, zoom. cbn. destruct (m c); reflexivity. Qed.
  Lemma sim_oncore {A} n (m : M (core V V) A) : keeps m -> sim n any same (oncore (sl_vt lt) m) (oncore (h_vt lt) m).
  Proof. intros H. eapply sim_point; [apply oncore_sl|intros s; reflexivity|]. apply (sim_reading m H). Qed.

  Lemma sim_delitem i : sim0 (delitem_int (sl_vt lt) i) (delitem_int (h_vt lt) i).
  Proof.
    intros n. unfold delitem_int. apply simn_bind; [apply sim_oncore, keeps_pos|]. intros p. apply sim_delete.
  Qed.
  Lemma sim_forM {A} n (f : A -> M (core V V) unit) hf l : (forall a, sim n any same (f a) (hf a)) -> sim n any same (forM f l) (forM hf l).
  Proof.
    intros H. induction l as [|a l IH]; cbn; [apply sim_ret|]. apply simn_bind; [apply H|]. intros _. exact IH.
  Qed.
  Ltac simp :=
    cbv zeta;
    first [ apply sim_ret | apply sim_raise | apply sim_liftr | apply sim_delete | apply sim_oncore, keeps_get | apply sim_oncore, keeps_pos
          | apply simn_bind; [simp|intros; simp]
          | match goal with |- sim _ _ _ (match ?x with _ => _ end) _ => destruct x; simp end ].
  Lemma sim_pop i : sim0 (pop (sl_vt lt) i) (pop (h_vt lt) i).
  Proof. intros n. unfold pop. cbn [vt_delete sl_vt h_vt]. simp. Qed.
  Lemma sim_discard v : sim0 (sl_discard lt eq v) (h_discard lt eq v).
  Proof. intros n. unfold sl_discard, h_discard. apply sim_get2. intros c. apply sim_any. simp. Qed.
  Lemma sim_remove v : sim0 (sl_remove lt eq v) (h_remove lt eq v).
  Proof. intros n. unfold sl_remove, h_remove. apply sim_get2. intros c. apply sim_any. simp. Qed.
End Writers.

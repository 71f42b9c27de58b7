(** * Splits and merges are rare (C83): lemmas *)
From Coq Require Import List Arith Lia ZArith.
From Verif Require Import PyBase BaseFacts Model Spec History Reach Shape IndexFacts CoreFacts VtFacts KeyFacts ListSim ListFacts CallSpec CallFacts
  HistFacts ListProps FaultSpec FaultFacts FaultHist FaultProps KeyFaultProps BalanceSpec BalanceFacts BalanceProps AmortSpec AmortFacts.
Import ListNotations.
Local Unset Implicit Arguments.

(** ** Rules for [after] *)
Lemma after_keep {S A} (P Q : S -> Prop) (m : M S A) : (forall s, P s -> Q s) -> keeps P m -> after P Q m.
Proof. intros H Hm s a s' Hs E. apply H. specialize (Hm s Hs). rewrite E in Hm. exact Hm. Qed.
Lemma after_bind {S A B} (P Q : S -> Prop) (m : M S A) (k : A -> M S B) :
  keeps P m -> (forall a, after P Q (k a)) -> after P Q (bind m k).
Proof.
  intros Hm Hk s b s' Hs E. apply bind_inv in E as (a & s1 & E1 & E2). specialize (Hm s Hs). rewrite E1 in Hm.
  exact (Hk a s1 b s' Hm E2).
Qed.
Lemma after_then {S A B} (P Q : S -> Prop) (m : M S A) (v : A -> B) : after P Q m -> after P Q (bind m (fun a => ret (v a))).
Proof. intros Hm s b s' Hs E. apply bind_inv in E as (a & s1 & E1 & E2). injection E2 as _ <-. exact (Hm s a s1 Hs E1). Qed.

Ltac aft H := repeat first
  [ solve [auto with keepdb]
  | solve [apply after_keep; [exact H|keep]]
  | match goal with
    | |- after _ _ (if ?b then _ else _) => destruct b
    | |- after _ _ (match ?x with _ => _ end) => destruct x
    | |- after _ _ (let _ := _ in _) => cbv zeta
    end
  | apply after_then; solve [auto with keepdb]
  | apply after_bind; [keep|intros ?] ].

(** ** Queries *)
Lemma build_load {V K} (c : core V K) : load (snd (build_index c)) = load c.
Proof.
  unfold build_index, modifyR. cbv zeta.
  destruct (_ =? 1); [reflexivity|].
  destruct (if Nat.odd _ then _ else _) as [row1|]; cbn [rbind]; [|reflexivity].
  destruct (_ =? 1); [reflexivity|]. destruct (_ =? 0); [reflexivity|].
  destruct (build_index_sized _ _ _); cbn [rbind]; reflexivity.
Qed.

Section Queries.
  Context {V K : Type} (c0 : core V K).
  Notation sm := (same_rows c0).
  Lemma ensure_same : keeps sm ensure_index.
  Proof.
    intros c (H1 & H2 & H3 & H4). unfold ensure_index, bind, get. destruct (is_nil (index c)) eqn:E; [|exact (conj H1 (conj H2 (conj H3 H4)))].
    destruct (build_lists c) as [E1 E2]. unfold same_rows. rewrite E1, E2, build_load. split; [exact H1|]. split; [exact H2|]. split; [exact H3|].
    intros H. specialize (H4 H). destruct (index c); [contradiction|discriminate].
  Qed.
  Lemma loc_same pos idx : keeps sm (loc pos idx).
  Proof. pose proof ensure_same. unfold loc. keep. Qed.
  Lemma pos_of_same i : keeps sm (Model.pos_of i).
  Proof. pose proof ensure_same. unfold Model.pos_of, pos_nonneg, pos_tree. keep. Qed.
  Lemma getitem_same i : keeps sm (getitem_int i).
  Proof. pose proof pos_of_same. unfold getitem_int. keep. Qed.
  Lemma slice_same sl : keeps sm (getitem_slice sl).
  Proof. pose proof pos_of_same. pose proof getitem_same. unfold getitem_slice, getitem_slice_rec, getitem_fwd. keep. Qed.
  Lemma islice_same a b r : keeps sm (islice a b r).
  Proof. pose proof pos_of_same. unfold islice. keep. Qed.
  Lemma same_paid d c : sm c -> paid d c0 c.
  Proof.
    intros (H1 & H2 & H3 & H4). split; [exact H2|]. left. rewrite H1. split; [|lia]. right. rewrite H1. split; [left; reflexivity|exact H4].
  Qed.
End Queries.

Section Inherited.
  Context {S V K : Type} (T : vtable S V K).
  Variables P Q : S -> Prop.
  Hypothesis HPQ : forall s, P s -> Q s.
  Hypothesis Hget : keeps P (oncore T get).
  Hypothesis Hpos : forall i, keeps P (oncore T (Model.pos_of i)).
  Hypothesis Hdelete : forall p i, after P Q (vt_delete T p i).
  Lemma del_after i : after P Q (delitem_int T i).
  Proof. unfold delitem_int. aft HPQ. Qed.
  Lemma pop_after i : after P Q (pop T i).
  Proof. unfold pop. aft HPQ. Qed.
End Inherited.

(** ** One operation on a SortedList *)
Definition small_rows {V K} (c : core V K) : Prop := Forall (fun l => length l <= 2 * load c) (lists c).

Section ListPaid.
  Context {V : Type}.
  Variables lt eq : V -> V -> res bool.
  Variable dflt : nat.
  Notation SL := (core V V).

  Lemma embed_same (c0 c : SL) : same_rows c0 c -> same_krows c0 (embed c).
  Proof. intros H. split; [exact H|reflexivity]. Qed.
  Lemma sl_add_paid (c0 : SL) v : small_rows c0 -> after (same_rows c0) (paid 1 c0) (sl_add lt v).
  Proof.
    intros Hs c a c' H E. pose proof (sim_add lt v c) as Sm. unfold SimAt in Sm. rewrite E in Sm.
    exact (skl_add_paid lt ident c0 v Hs _ _ _ (embed_same _ _ H) Sm).
  Qed.
  Lemma sl_delete_paid (c0 : SL) p i : small_rows c0 -> after (same_rows c0) (paid 3 c0) (sl_delete p i).
  Proof.
    intros Hs c a c' H E. pose proof (sim_delete p i c) as Sm. unfold SimAt in Sm. rewrite E in Sm.
    exact (skl_delete_paid c0 p i Hs _ _ _ (embed_same _ _ H) Sm).
  Qed.
  Lemma sl_core_same (c0 : SL) A (m : M SL A) : keeps (same_rows c0) m -> keeps (same_rows c0) (oncore (sl_vt lt) m).
  Proof. intros H s Hs. unfold oncore, zoom. cbn [vt_get vt_put sl_vt]. specialize (H s Hs). destruct (m s). exact H. Qed.

  Lemma paid_up d d' (c c' : SL) : d <= d' -> paid d c c' -> paid d' c c'.
  Proof. intros Hd (H1 & [(H2 & H3)|H2]); split; try exact H1; [left; split; [exact H2|lia]|right; lia]. Qed.

  Lemma sl_step_paid o (c : SL) : LShape c -> single o -> paid (3 * edit o) c (snd (sl_step lt eq dflt o c)).
  Proof.
    intros HS Ho. pose proof (lshape_width c HS) as HW.
    assert (Hsz : small_rows c).
    { destruct HS as (rows & R0 & _). pose proof (sh_lists _ _ _ R0) as El. cbn [embed kc] in El. unfold small_rows. rewrite El. apply (sh_sizes _ _ _ R0). }
    assert (H0 : same_rows c c) by (split; [reflexivity|]; split; [reflexivity|]; split; [apply HW|auto]).
    assert (HPQ : forall d s, same_rows c s -> paid d c s) by (intros; now apply same_paid).
    assert (HQ : forall A (inj : A -> out V) (m : SL -> res A * SL), keeps (same_rows c) m -> paid 0 c (snd (observe inj m c))).
    { intros A inj m Hm. unfold observe. specialize (Hm c H0). destruct (m c) as [[a|e] s1]; apply HPQ; exact Hm. }
    assert (HE : forall d A (inj : A -> out V) (m : SL -> res A * SL), after (same_rows c) (paid d c) m -> (forall e c', m c = (Err e, c') -> c' = c) ->
        paid d c (snd (observe inj m c))).
    { intros d A inj m Hm He. unfold observe. destruct (m c) as [[a|e] s1] eqn:E; [exact (Hm c a s1 H0 E)|].
      rewrite (He e s1 eq_refl). apply HPQ. exact H0. }
    pose proof (fun p i => sl_delete_paid c p i Hsz) as Hd.
    pose proof (loc_same c) as Hloc.
    assert (Hbr : forall v, keeps (same_rows c) (sl_bisect_right lt v)) by (intros v; unfold sl_bisect_right; keep).
    destruct o; cbn [single] in Ho; try contradiction; cbn [sl_step edit Nat.mul Nat.add].
    - apply (paid_up 1); [lia|]. apply HE; [apply sl_add_paid; exact Hsz|]. intros e c' E.
      destruct (sl_add_gen lt v c HS) as [(e' & E' & _)|(c1 & l1 & l2 & E' & _)]; congruence.
    - split; [reflexivity|]. left. split; [left; reflexivity|cbn; lia].
    - apply HE; [unfold sl_discard; aft (HPQ 3)|]. intros e c' E.
      destruct (sl_discard_gen lt eq v c HS) as [(e' & E' & _)|[E'|(c1 & l1 & l2 & x & E' & _)]]; congruence.
    - apply HE; [unfold sl_remove; aft (HPQ 3)|]. intros e c' E.
      destruct (sl_remove_gen lt eq v c HS) as [(e' & E' & _)|(c1 & l1 & l2 & x & E' & _)]; congruence.
    - apply HQ. unfold sl_contains. keep.
    - apply HQ. apply getitem_same.
    - apply HQ. apply slice_same.
    - apply HE; [apply del_after; auto; intros; apply sl_core_same; [apply pos_of_same]|]. intros e c' E.
      destruct (delitem_int_ok _ _ (sl_vt_ok lt) c i HS) as [(c1 & l' & E' & _)|[E' _]]; congruence.
    - apply HE; [apply pop_after; auto; intros; apply sl_core_same; [apply keeps_get|apply pos_of_same]|]. intros e c' E.
      destruct (pop_ok _ _ (sl_vt_ok lt) c i HS) as [(c1 & v & l' & E' & _)|[E' _]]; congruence.
    - apply HQ. unfold length_of. keep.
    - apply HQ. unfold iter. keep.
    - apply HQ. unfold reversed. keep.
    - apply HQ. unfold sl_bisect_left. keep.
    - apply HQ. auto.
    - apply HQ. unfold sl_count. keep.
    - apply HQ. unfold sl_index. keep.
    - apply HQ. unfold sl_irange. keep.
    - apply HQ. apply islice_same.
    - apply HQ. unfold compare. keep.
    - apply HQ. unfold unsupported. keep.
  Qed.
End ListPaid.

(** ** One operation on a SortedKeyList *)
Section KeyPaid.
  Context {V K : Type}.
  Variables vlt eq : V -> V -> res bool.
  Variables klt keq : K -> K -> res bool.
  Variable kf : V -> res K.
  Variable dflt : nat.
  Notation SKL := (skl V K).

  Lemma skl_core_same (c0 : core V K) A (m : M (core V K) A) : keeps (same_rows c0) m -> keeps (same_krows c0) (oncore (skl_vt klt kf) m).
  Proof.
    intros H s (Hs & Hk). unfold oncore, zoom. cbn [vt_get vt_put skl_vt]. specialize (H (kc s) Hs).
    destruct (m (kc s)) as [r t]. split; [exact H|]. cbn. destruct H as (E & _), Hs as (E' & _). cbn in E. rewrite E, <- E'. exact Hk.
  Qed.
  Lemma shape_same (s : SKL) : Shape kf s -> same_krows (kc s) s /\ small_rows (kc s).
  Proof.
    intros HS. pose proof (shape_lens kf s HS) as [L1 L2]. destruct HS as (rows & H0 & _). repeat split; auto.
    - congruence.
    - rewrite (sh_keys _ _ _ H0), (sh_lists _ _ _ H0), !map_map. pose proof (sh_rows _ _ _ H0) as HR.
      induction HR as [|r rows' Hr HR IH]; [reflexivity|]. cbn [map]. f_equal; [exact (row_ok_len kf r Hr)|].
      clear - HR. induction HR as [|r' rows'' Hr HR IH]; [reflexivity|]. cbn [map]. f_equal; [exact (row_ok_len kf r' Hr)|exact IH].
    - unfold small_rows. rewrite (sh_lists _ _ _ H0). apply (sh_sizes _ _ _ H0).
  Qed.

  Lemma skl_step_paid o (s : SKL) : Shape kf s -> ksingle o -> paid (3 * kedit o) (kc s) (kc (snd (skl_step vlt eq klt keq kf dflt o s))).
  Proof.
    intros HS Ho. pose proof (shape_same s HS) as (H0 & Hsz).
    set (c := kc s) in *.
    assert (HPQ : forall d t, same_krows c t -> paid d c (kc t)) by (intros d t H; apply same_paid, H).
    assert (HQ : forall A (inj : A -> out V) (m : SKL -> res A * SKL), keeps (same_krows c) m -> paid 0 c (kc (snd (observe inj m s)))).
    { intros A inj m Hm. unfold observe. specialize (Hm s H0). destruct (m s) as [[a|e] s1]; apply HPQ; exact Hm. }
    assert (HN : forall A (inj : A -> out V) (m : M (core V K) A), keeps (same_rows c) m -> paid 0 c (kc (snd (observe inj (oncore (skl_vt klt kf) m) s)))).
    { intros A inj m Hm. apply HQ. now apply skl_core_same. }
    assert (HE : forall d A (inj : A -> out V) (m : SKL -> res A * SKL), after (same_krows c) (fun t => paid d c (kc t)) m ->
        (forall e s', m s = (Err e, s') -> s' = s) -> paid d c (kc (snd (observe inj m s)))).
    { intros d A inj m Hm He. unfold observe. destruct (m s) as [[a|e] s1] eqn:E; [exact (Hm s a s1 H0 E)|].
      rewrite (He e s1 eq_refl). apply HPQ. exact H0. }
    pose proof (fun p i => skl_delete_paid c p i Hsz) as Hd.
    assert (Hloc : forall p i, keeps (same_krows c) (oncore (skl_vt klt kf) (loc p i))) by (intros; apply skl_core_same, loc_same).
    assert (Hf : forall v, keeps (same_krows c) (skl_find eq klt keq kf v)) by (intros; unfold skl_find; keep).
    assert (Hir : forall a b x y r, keeps (same_krows c) (skl_irange_key klt a b x y r)) by (intros; unfold skl_irange_key; keep).
    assert (Hbl : forall k, keeps (same_krows c) (skl_bisect_key_left klt kf k)) by (intros; unfold skl_bisect_key_left; keep).
    assert (Hbr : forall k, keeps (same_krows c) (skl_bisect_key_right klt kf k)) by (intros; unfold skl_bisect_key_right; keep).
    assert (Hil : forall fuel key v a b p i n, keeps (same_krows c) (index_loop eq klt keq kf fuel key v a b p i n)).
    { induction fuel as [|f IH]; intros; cbn [index_loop]; [apply keeps_raise|]. keep. }
    destruct o as [o| | |]; cbn [skl_step ksingle kedit] in *; [destruct o; cbn [single] in Ho; try contradiction; cbn [skl_lstep edit Nat.mul Nat.add]|..].
    - refine (_ (HE 1 _ runit (skl_add klt kf v) (skl_add_paid klt kf c v Hsz) _)).
      + intros (H1 & [(H2 & H3)|H2]); split; try exact H1; [left; split; [exact H2|lia]|right; lia].
      + intros e s' E. destruct (skl_add_gen kf klt v s HS) as [(e0 & E0 & _)|(s1 & k & l1 & l2 & k1 & k2 & E0 & _)]; congruence.
    - split; [reflexivity|]. left. split; [left; reflexivity|cbn; lia].
    - apply HE; [unfold skl_discard; aft (HPQ 3)|]. intros e c' E.
      destruct (skl_discard_gen eq klt keq kf v s HS) as [(e' & E' & _)|[E'|(c1 & l1 & l2 & x & E' & _)]]; congruence.
    - apply HE; [unfold skl_remove; aft (HPQ 3)|]. intros e c' E.
      destruct (skl_remove_gen eq klt keq kf v s HS) as [(e' & E' & _)|(c1 & l1 & l2 & x & E' & _)]; congruence.
    - apply HQ. unfold skl_contains. keep.
    - apply HN. apply getitem_same.
    - apply HN. apply slice_same.
    - apply HE; [apply (del_after _ (same_krows c)); auto; intros; apply skl_core_same; [apply pos_of_same]|]. intros e c' E.
      destruct (delitem_int_ok _ _ (skl_vt_ok klt kf) s i HS) as [(c1 & l' & E' & _)|[E' _]]; congruence.
    - apply HE; [apply (pop_after _ (same_krows c)); auto; intros; apply skl_core_same; [apply keeps_get|apply pos_of_same]|]. intros e c' E.
      destruct (pop_ok _ _ (skl_vt_ok klt kf) s i HS) as [(c1 & v & l' & E' & _)|[E' _]]; congruence.
    - apply HN. unfold length_of. keep.
    - apply HN. unfold iter. keep.
    - apply HN. unfold reversed. keep.
    - apply HQ. unfold skl_bisect_left. keep.
    - apply HQ. unfold skl_bisect_right. keep.
    - apply HQ. unfold skl_count. keep.
    - apply HQ. unfold skl_index. keep.
    - apply HQ. unfold skl_irange. keep.
    - apply HN. apply islice_same.
    - apply HN. unfold compare. keep.
    - apply HQ. unfold unsupported. keep.
    - apply HQ. keep.
    - apply HQ. keep.
    - apply HQ. keep.
  Qed.
End KeyPaid.

(** ** Histories *)
Lemma run_paid {W S R V K} (step : W -> S -> R * S) (view : S -> core V K) (I : S -> Prop) (ok : W -> Prop) (cost : W -> nat)
  (Hstep : forall w s, I s -> ok w -> I (snd (step w s)) /\ paid (3 * cost w) (view s) (view (snd (step w s)))) :
  forall ws s, I s -> Forall ok ws ->
  exists n, calm_but step view n s ws /\
    load (view s) * n <= 3 * list_sum (map cost ws) + strain (load (view s)) (lists (view s)).
Proof.
  induction ws as [|w ws IH]; intros s HI Hok.
  - exists 0. split; [constructor|lia].
  - inversion Hok as [|? ? Hw Hok']; subst. destruct (Hstep w s HI Hw) as (HI' & HL & HP).
    destruct (IH _ HI' Hok') as (n & Hn & Hle). rewrite HL in Hle. cbn [map list_sum fold_right].
    change (fold_right Nat.add 0 (map cost ws)) with (list_sum (map cost ws)).
    destruct HP as [(HC & HP)|HP].
    + exists n. split; [apply calm_step; assumption|lia].
    + exists (Datatypes.S n). split; [apply calm_not; assumption|]. lia.
Qed.

Lemma full_bound {V} ld (ls : list (list V)) : Forall (fun l => length l <= 2 * ld) ls -> full ld ls <= 3 * ld * length ls.
Proof.
  induction 1 as [|l ls Hl _ IH]; [cbn; lia|]. change (full ld (l :: ls)) with (phi ld (length l) + full ld ls). cbn [length]. unfold phi. lia.
Qed.

Lemma single_ok {V} (o : lop V) : single o -> lop_ok o.
Proof. destruct o; cbn; tauto. Qed.
Lemma single_fine {V} (o : lop V) r : single o -> update_fine o r.
Proof. destruct o; cbn; tauto. Qed.

Section Final.
  Context {V : Type}.
  Variable dflt : nat.
  Hypothesis Hdf : 1 <= dflt.
  Lemma list_paid (ws : list (wild V)) (c : core V V) : LShape c -> Forall (fun w => single (w_op w)) ws ->
    exists n, calm_but (wild_step dflt) (fun c => c) n c ws /\ load c * n <= 3 * edits ws + strain (load c) (lists c).
  Proof.
    apply (run_paid (wild_step dflt) (fun c => c) LShape (fun w => single (w_op w)) (fun w => edit (w_op w))).
    intros w s HS Hw. unfold wild_step. split; [|apply sl_step_paid; assumption].
    destruct (sl_step_gen (w_lt w) (w_eq w) dflt Hdf (w_op w) s HS (single_ok _ Hw)) as (r & c1 & E & _ & Hn).
    rewrite E. apply Hn. apply single_fine. exact Hw.
  Qed.
  Context {K : Type}.
  Variable kf : V -> res K.
  Lemma key_paid (ws : list (kwild V K)) (s : skl V K) : Shape kf s -> Forall (fun w => ksingle (kw_op w)) ws ->
    exists n, calm_but (kwild_step kf dflt) (@kc V K) n s ws /\ load (kc s) * n <= 3 * kedits ws + strain (load (kc s)) (lists (kc s)).
  Proof.
    apply (run_paid (kwild_step kf dflt) (@kc V K) (Shape kf) (fun w => ksingle (kw_op w)) (fun w => kedit (kw_op w))).
    clear s. intros w s HS Hw. unfold kwild_step. split; [|apply skl_step_paid; assumption].
    assert (Hok : kop_ok (kw_op w)) by (destruct (kw_op w); cbn in *; auto using single_ok).
    destruct (skl_step_gen (kw_vlt w) (kw_eq w) (kw_klt w) (kw_keq w) kf dflt Hdf (kw_op w) s HS Hok) as (r & c1 & E & _ & Hn).
    rewrite E. apply Hn. destruct (kw_op w); cbn in *; auto using single_fine.
  Qed.
End Final.

(** ** Freshly built containers *)
Lemma chunks_strain {A} ld (l : list A) cs : chunks ld l = Ok cs -> strain ld cs <= 3 * ld.
Proof.
  unfold chunks. destruct (Nat.eqb_spec ld 0) as [|Hz]; [discriminate|]. intros H.
  enough (full ld cs <= 3 * ld) by (pose proof (strain_full ld cs); lia).
  revert cs H. remember (length l) as fuel eqn:Ef. assert (Hle : length l <= fuel) by lia. clear Ef. revert l Hle.
  induction fuel as [|f IH]; intros l Hle cs H.
  - destruct l; [|cbn in Hle; lia]. cbn in H. injection H as <-. cbn. lia.
  - destruct l as [|x t]; [cbn in H; injection H as <-; cbn; lia|]. cbn [chunks_fuel] in H.
    apply rbind_Ok in H as (rest & H & E). injection E as <-.
    rewrite full_cons. assert (Hl2 : length (skipn ld (x :: t)) <= f) by (rewrite skipn_length; cbn [length] in *; lia).
    specialize (IH _ Hl2 _ H). rewrite firstn_length. unfold phi at 1.
    destruct (Nat.le_gt_cases ld (length (x :: t))) as [Hc|Hc]; [lia|].
    rewrite skipn_all2 in H by lia. destruct f; cbn in H; injection H as <-; cbn [full map list_sum fold_right]; unfold full; cbn; lia.
Qed.

Lemma sl_new_strain {V} (lt : V -> V -> res bool) dflt l c : sl_new lt dflt l = Ok c -> load c = dflt /\ strain dflt (lists c) <= 3 * dflt.
Proof.
  unfold sl_new, sl_update. destruct (bind _ _ _) as [[u|e] s] eqn:E; [|discriminate]. intros H. injection H as <-.
  apply bind_inv in E as (values & s1 & E1 & E). injection E1 as _ <-.
  apply bind_inv in E as (? & ? & E1 & E). injection E1 as <- <-. cbn [is_nil maxes core_empty] in E.
  unfold sl_fill in E. apply modifyR_inv in E. apply rbind_Ok in E as (cs & C & E). apply rbind_Ok in E as (? & _ & E). injection E as <-.
  split; [reflexivity|]. exact (chunks_strain _ _ _ C).
Qed.
Lemma skl_new_strain {V K} (klt : K -> K -> res bool) (kf : V -> res K) dflt l s : skl_new klt kf dflt l = Ok s ->
  load (kc s) = dflt /\ strain dflt (lists (kc s)) <= 3 * dflt.
Proof.
  unfold skl_new, skl_update. destruct (bind _ _ _) as [[u|e] s1] eqn:E; [|discriminate]. intros H. injection H as <-.
  apply bind_inv in E as (values & ? & E1 & E). injection E1 as _ <-.
  apply bind_inv in E as (? & ? & E1 & E). injection E1 as <- <-. cbn [is_nil maxes kc skl_empty core_empty] in E.
  unfold skl_fill in E. apply modifyR_inv in E. cbv zeta in E. apply rbind_Ok in E as (cs & C & E). apply rbind_Ok in E as (? & _ & E). apply rbind_Ok in E as (? & _ & E). injection E as <-.
  split; [reflexivity|]. exact (chunks_strain _ _ _ C).
Qed.

(** ** C83 *)
Lemma c83_list : forall V dflt (c : core V V) (ws : list (wild V)), 1 <= dflt -> wild_reach dflt c ->
  Forall (fun w => single (w_op w)) ws ->
  exists n, calm_but (wild_step dflt) (fun c => c) n c ws /\
    load c * n <= 3 * edits ws + 3 * load c * length (lists c).
Proof.
  intros V dflt c ws Hd HR Hs. pose proof (wild_shape V dflt c Hd HR) as HL.
  destruct (list_paid dflt Hd ws c HL Hs) as (n & H1 & H2). exists n. split; [exact H1|].
  assert (Hsz : small_rows c).
  { destruct HL as (rows & R0 & _). pose proof (sh_lists _ _ _ R0) as El. cbn [embed kc] in El. unfold small_rows. rewrite El. apply (sh_sizes _ _ _ R0). }
  pose proof (strain_full (load c) (lists c)). pose proof (full_bound _ _ Hsz). lia.
Qed.
Lemma c83_new : forall V (lt : V -> V -> res bool) dflt l (c : core V V) (ws : list (wild V)), 1 <= dflt -> sl_new lt dflt l = Ok c ->
  Forall (fun w => single (w_op w)) ws ->
  exists n, calm_but (wild_step dflt) (fun c => c) n c ws /\ dflt * n <= 3 * edits ws + 3 * dflt.
Proof.
  intros V lt dflt l c ws Hd HN Hs. destruct (sl_new_strain lt dflt l c HN) as (HL & HT).
  destruct (sl_new_gen lt dflt l Hd) as [(c' & E & HS & _)|(e & E & _)]; [|congruence].
  assert (c' = c) as -> by congruence.
  destruct (list_paid dflt Hd ws c HS Hs) as (n & H1 & H2). exists n. split; [exact H1|]. rewrite HL in H2. lia.
Qed.
Lemma c83_empty : forall V dflt (ws : list (wild V)), 1 <= dflt -> Forall (fun w => single (w_op w)) ws ->
  exists n, calm_but (wild_step dflt) (fun c => c) n (sl_init dflt) ws /\ dflt * n <= 3 * edits ws.
Proof.
  intros V dflt ws Hd Hs. destruct (list_paid dflt Hd ws (sl_init dflt)) as (n & H1 & H2); [apply lshape_empty; exact Hd|exact Hs|].
  exists n. split; [exact H1|]. cbn in H2. lia.
Qed.
Lemma c83_keylist : forall V K (kf : V -> res K) dflt s (ws : list (kwild V K)), 1 <= dflt -> kwild_reach kf dflt s ->
  Forall (fun w => ksingle (kw_op w)) ws ->
  exists n, calm_but (kwild_step kf dflt) (@kc V K) n s ws /\
    load (kc s) * n <= 3 * kedits ws + 3 * load (kc s) * length (lists (kc s)).
Proof.
  intros V K kf dflt s ws Hd HR Hs. destruct (kwild_small V K kf dflt s Hd HR) as [HL _].
  destruct (key_paid dflt Hd kf ws s HL Hs) as (n & H1 & H2). exists n. split; [exact H1|].
  pose proof (shape_same kf s HL) as [_ Hsz].
  pose proof (strain_full (load (kc s)) (lists (kc s))). pose proof (full_bound _ _ Hsz). lia.
Qed.
Lemma c83_keynew : forall V K (klt : K -> K -> res bool) (kf : V -> res K) dflt l s (ws : list (kwild V K)), 1 <= dflt ->
  skl_new klt kf dflt l = Ok s -> Forall (fun w => ksingle (kw_op w)) ws ->
  exists n, calm_but (kwild_step kf dflt) (@kc V K) n s ws /\ dflt * n <= 3 * kedits ws + 3 * dflt.
Proof.
  intros V K klt kf dflt l s ws Hd HN Hs. destruct (skl_new_strain klt kf dflt l s HN) as (HL & HT).
  destruct (skl_new_gen klt kf dflt l Hd) as [(s' & E & HS & _)|(e & E & _)]; [|congruence].
  assert (s' = s) as -> by congruence.
  destruct (key_paid dflt Hd kf ws s HS Hs) as (n & H1 & H2). exists n. split; [exact H1|]. rewrite HL in H2. lia.
Qed.

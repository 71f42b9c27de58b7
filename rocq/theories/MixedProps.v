(** * Statements about SortedLists and SortedKeyLists that live side by side *)
From Verif Require Import PyBase Model Spec SpecFacts History Shape CoreFacts ListSim HistFacts Reach ListProps KeyProps ModelHeap ModelKHeap ModelMixed HeapSpec MixedSpec
  HeapFacts HeapSim HeapSim2 HeapProps KHeapFacts KHeapSim KHeapSim2 MixedFacts.
Local Unset Implicit Arguments.

(** ** Two worlds of values, one simulating the other *)
Section Sim.
  Context {V X Y : Type}.
  Variable step : kop V V -> X -> out V * X.
  Variable fresh : cls -> list V -> res X.
  Variable cont : X -> list V.
  Variable kind : X -> cls.
  Variable cmp : cmpop -> X -> list V + X -> out V.
  Variable step' : kop V V -> Y -> out V * Y.
  Variable fresh' : cls -> list V -> res Y.
  Variable cont' : Y -> list V.
  Variable kind' : Y -> cls.
  Variable cmp' : cmpop -> Y -> list V + Y -> out V.
  Variable H0 : X -> Y -> Prop.
  Hypothesis Hstep : forall o x y, H0 x y -> kop_ok o -> fst (step o x) = fst (step' o y) /\ H0 (snd (step o x)) (snd (step' o y)).
  Hypothesis Hfresh : forall c l, match fresh c l, fresh' c l with Ok x, Ok y => H0 x y | Err e, Err e' => e = e' | _, _ => False end.
  Hypothesis Hcont : forall x y, H0 x y -> cont x = cont' y.
  Hypothesis Hkind : forall x y, H0 x y -> kind x = kind' y.
  Definition arel (a : list V + X) (b : list V + Y) : Prop :=
    match a, b with inl l, inl l' => l = l' | inr x, inr y => H0 x y | _, _ => False end.
  Hypothesis Hcmp : forall op x y a b, H0 x y -> arel a b -> cmp op x a = cmp' op y b.

  Definition wrel (w : list X * list (list V)) (w' : list Y * list (list V)) : Prop := Forall2 H0 (fst w) (fst w') /\ snd w = snd w'.
  Definition steps (p : out V * (list X * list (list V))) (q : out V * (list Y * list (list V))) : Prop := fst p = fst q /\ wrel (snd p) (snd q).

  Lemma f2_get l l' : Forall2 H0 l l' -> forall i, match getn l i, getn l' i with Ok x, Ok y => H0 x y | Err e, Err e' => e = e' | _, _ => False end.
  Proof. induction 1 as [|x y l l' H _ IH]; intros [|i]; cbn; auto. apply IH. Qed.
  Lemma f2_replace l l' : Forall2 H0 l l' -> forall i x y, H0 x y -> Forall2 H0 (replace l i x) (replace l' i y).
  Proof. induction 1 as [|a b l l' H HF IH]; intros [|i] x y Hx; cbn; constructor; auto. Qed.
  Lemma on_steps w w' i o : wrel w w' -> kop_ok o -> steps (q_on step i o w) (q_on step' i o w').
  Proof.
    intros [HF HU] Ho. unfold q_on. pose proof (f2_get _ _ HF i) as G. destruct (getn (fst w) i) as [x|e], (getn (fst w') i) as [y|e']; try contradiction.
    - destruct (Hstep o x y G Ho) as [E R]. destruct (step o x) as [r x'], (step' o y) as [r' y']. cbn in *. split; [exact E|]. split; [|exact HU].
      apply f2_replace; assumption.
    - subst. split; [reflexivity|]. split; assumption.
  Qed.
  Lemma make_steps w w' c l : wrel w w' -> steps (q_make fresh c l w) (q_make fresh' c l w').
  Proof.
    intros [HF HU]. unfold q_make. pose proof (Hfresh c l) as G. destruct (fresh c l) as [x|e], (fresh' c l) as [y|e']; try contradiction.
    - split; [reflexivity|]. split; [|exact HU]. apply Forall2_app; [exact HF|]. constructor; auto.
    - subst. split; [reflexivity|]. split; assumption.
  Qed.
  Lemma new_steps w w' i f g : wrel w w' -> (forall x y, H0 x y -> f x = g y) -> steps (q_new fresh i f w) (q_new fresh' i g w').
  Proof.
    intros R E. unfold q_new. pose proof (f2_get _ _ (proj1 R) i) as G. destruct (getn (fst w) i) as [x|e], (getn (fst w') i) as [y|e']; try contradiction.
    - rewrite (E x y G). destruct (g y). apply make_steps, R.
    - subst. split; [reflexivity|exact R].
  Qed.
  Lemma with_steps w w' a f g : wrel w w' -> (forall x y, arel x y -> steps (f x w) (g y w')) -> steps (q_with a f w) (q_with a g w').
  Proof.
    intros R HS. unfold q_with, q_arg. destruct a as [i|i].
    - rewrite (proj2 R). destruct (getn (snd w') i) as [l|e]; cbn [rbind]; [apply HS; reflexivity|]. split; [reflexivity|exact R].
    - pose proof (f2_get _ _ (proj1 R) i) as G. destruct (getn (fst w) i) as [x|e], (getn (fst w') i) as [y|e']; try contradiction; cbn [rbind].
      + apply HS. exact G.
      + subst. split; [reflexivity|exact R].
  Qed.
  Lemma vals_eq a b : arel a b -> q_vals cont a = q_vals cont' b.
  Proof. destruct a, b; cbn; try contradiction; auto. Qed.
  Lemma sum_eq a b x y : arel a b -> H0 x y -> q_sum cont kind a x = q_sum cont' kind' b y.
  Proof.
    intros Ha Hx. unfold q_sum. rewrite (Hcont x y Hx), (Hkind x y Hx). destruct a as [l|x2], b as [l'|y2]; cbn in Ha; try contradiction; [subst; reflexivity|].
    rewrite (Hcont x2 y2 Ha), (Hkind x2 y2 Ha). reflexivity.
  Qed.
  Lemma step_steps o w w' : wrel w w' -> mop_ok o -> steps (q_step step fresh cont kind cmp o w) (q_step step' fresh' cont' kind' cmp' o w').
  Proof.
    intros R Ho. destruct o as [o|k a|i o|i n]; cbn [q_step].
    1: destruct o as [l|i l|i|a|i o|i a|i a|i op a|i sl|i|i a|i n|i].
    - split; [reflexivity|]. split; [apply R|]. cbn. rewrite (proj2 R). reflexivity.
    - rewrite (proj2 R). destruct (getn (snd w') i); (split; [reflexivity|]); [|exact R]. split; [apply R|reflexivity].
    - rewrite (proj2 R). destruct (getn (snd w') i); (split; [reflexivity|]); exact R.
    - apply with_steps; [exact R|]. intros x y Hx. rewrite (vals_eq x y Hx). apply make_steps, R.
    - apply on_steps; [exact R|]. exact (proj2 Ho).
    - apply with_steps; [exact R|]. intros x y Hx. rewrite (vals_eq x y Hx). apply on_steps; [exact R|exact I].
    - apply with_steps; [exact R|]. intros x y Hx. rewrite (vals_eq x y Hx). apply on_steps; [exact R|exact I].
    - apply with_steps; [exact R|]. intros a1 a2 Ha. pose proof (f2_get _ _ (proj1 R) i) as G.
      destruct (getn (fst w) i) as [x|e], (getn (fst w') i) as [y|e']; try contradiction; [|subst; split; [reflexivity|exact R]].
      rewrite (Hcmp op x y a1 a2 G Ha). split; [reflexivity|exact R].
    - destruct (on_steps w w' i (KList (LSlice sl)) R I) as [E R1].
      destruct (q_on step i (KList (LSlice sl)) w) as [r u], (q_on step' i (KList (LSlice sl)) w') as [r' u']. cbn [fst snd] in *. subst r'.
      destruct r; (split; [reflexivity|]); try exact R1. split; [apply R1|]. cbn. rewrite (proj2 R1). reflexivity.
    - apply new_steps; [exact R|]. intros x y Hx. rewrite (Hcont x y Hx), (Hkind x y Hx). reflexivity.
    - apply with_steps; [exact R|]. intros a1 a2 Ha. apply new_steps; [exact R|]. intros x y Hx. apply sum_eq; assumption.
    - apply new_steps; [exact R|]. intros x y Hx. rewrite (Hcont x y Hx), (Hkind x y Hx). reflexivity.
    - apply new_steps; [exact R|]. intros x y Hx. rewrite (Hcont x y Hx), (Hkind x y Hx). reflexivity.
    - apply with_steps; [exact R|]. intros x y Hx. rewrite (vals_eq x y Hx). apply make_steps, R.
    - apply on_steps; [exact R|]. destruct o as [o| | |]; [exact (proj2 Ho)|exact I|exact I|exact I].
    - apply new_steps; [exact R|]. intros x y Hx. unfold q_rmul. rewrite (Hcont x y Hx), (Hkind x y Hx). reflexivity.
  Qed.
  Lemma run_steps ops : forall w w', wrel w w' -> Forall mop_ok ops ->
    fst (q_run step fresh cont kind cmp ops w) = fst (q_run step' fresh' cont' kind' cmp' ops w') /\
    wrel (snd (q_run step fresh cont kind cmp ops w)) (snd (q_run step' fresh' cont' kind' cmp' ops w')).
  Proof.
    unfold q_run. induction ops as [|o ops IH]; intros w w' R HF; [split; [reflexivity|exact R]|]. apply Forall_cons_iff in HF as [Ho HF].
    destruct (step_steps o w w' R Ho) as [E R1]. cbn [run].
    destruct (q_step step fresh cont kind cmp o w) as [r u], (q_step step' fresh' cont' kind' cmp' o w') as [r' u']. cbn [fst snd] in *. subst r'.
    destruct (IH u u' R1 HF) as [E2 R2].
    destruct (run (q_step step fresh cont kind cmp) ops u), (run (q_step step' fresh' cont' kind' cmp') ops u'). cbn [fst snd] in *. subst. split; [reflexivity|exact R2].
  Qed.
End Sim.

(** ** Values against sorted lists *)
Lemma lex_flip {V} (ltb : V -> V -> bool) : SWO ltb -> forall l o, lex ltb o l = CompOpp (lex ltb l o).
Proof.
  intros HO l. induction l as [|x l IH]; intros [|y o]; cbn; try reflexivity. rewrite IH.
  destruct (ltb x y) eqn:E1, (ltb y x) eqn:E2; try reflexivity. exfalso.
  pose proof (swo_trans HO x y x E1 E2) as E. rewrite (swo_irrefl HO) in E. discriminate.
Qed.
Lemma sp_eq_sym {V} (eqb : V -> V -> bool) : (forall x y, eqb x y = eqb y x) -> forall l o, sp_eq eqb l o = sp_eq eqb o l.
Proof. intros HS l. induction l as [|x l IH]; intros [|y o]; cbn; try reflexivity. rewrite IH, (HS x y). reflexivity. Qed.
Lemma sp_compare_flip {V} (ltb eqb : V -> V -> bool) op l o : TotalOrder ltb eqb -> sp_compare eqb ltb (cmp_flip op) o l = sp_compare eqb ltb op l o.
Proof.
  intros HT. assert (HS : forall x y, eqb x y = eqb y x) by (intros x y; rewrite !(to_eq HT); apply andb_comm).
  pose proof (lex_flip ltb (to_swo HT) l o) as E. destruct op; cbn [cmp_flip sp_compare]; rewrite ?E, ?(sp_eq_sym eqb HS o l); try reflexivity;
    destruct (lex ltb l o); reflexivity.
Qed.

Section Total.
  Context {V : Type}.
  Variables ltb eqb : V -> V -> bool.
  Variable key : nat -> V -> V.
  Variable dflt : nat.
  Hypothesis HT : TotalOrder ltb eqb.
  Hypothesis HE : forall n, EqCompat (by_key (key n) ltb) eqb.
  Hypothesis Hd : 1 <= dflt.

  Definition is_val (x : mval V) (y : cls * list V) : Prop :=
    match x with
    | VList c => fst y = CList /\ sl_reach ltb eqb dflt c /\ shows c (snd y)
    | VKey k s => fst y = CKey k /\ skl_reach (keyfn key k) ltb eqb ltb eqb dflt s /\ kshows s (snd y)
    end.
  Lemma keyfn_compat k : EqCompat (by_key (keyfn key k) ltb) eqb.
  Proof.
    destruct k as [n|]; [apply HE|]. intros x y E. unfold by_key, keyfn. rewrite (to_eq HT) in E. apply andb_prop in E as [A B].
    apply negb_true_iff in A, B. auto.
  Qed.
  Lemma keyof_total k : keyof (fun n => total1 (key n)) k = total1 (keyfn key k).
  Proof. destruct k; reflexivity. Qed.
  Lemma kcmp_any o : kcmp_ok ltb eqb (K := V) o.
  Proof. destruct o as [[]| | |]; cbn; auto. Qed.
  Notation kfn := (fun n => total1 (key n)).
  Lemma val_step o x y : is_val x y -> kop_ok o ->
    fst (v_step (total2 ltb) (total2 eqb) kfn dflt o x) = fst (s_step ltb eqb key o y) /\
    is_val (snd (v_step (total2 ltb) (total2 eqb) kfn dflt o x)) (snd (s_step ltb eqb key o y)).
  Proof.
    destruct x as [c|k s], y as [cl l]; cbn [is_val fst snd]; intros (-> & HR & HS) Ho; unfold s_step; cbn [fst snd v_step].
    - destruct o as [o| | |]; try (split; [reflexivity|]; cbn; auto).
      destruct (do_ok ltb eqb dflt HT Hd c l o HR HS Ho) as (c' & E & HR' & HS'). unfold sl_do in E. rewrite E.
      destruct (sp_step ltb eqb ltb o l) as [r l']. cbn in *. auto.
    - rewrite keyof_total. destruct (kdo_ok (keyfn key k) ltb eqb ltb eqb dflt HT (keyfn_compat k) Hd s l o HR HS Ho (kcmp_any o)) as (s' & E & HR' & HS').
      unfold skl_do in E. rewrite E. destruct (sp_kstep eqb ltb (keyfn key k) ltb o l) as [r l']. cbn in *. auto.
  Qed.
  Lemma val_fresh c l : match v_fresh (total2 ltb) kfn dflt c l, s_fresh ltb key c l with Ok x, Ok y => is_val x y | Err e, Err e' => e = e' | _, _ => False end.
  Proof.
    unfold v_fresh, s_fresh. destruct c as [|k].
    - assert (HI : sl_reach ltb eqb dflt (sl_init dflt)) by (exists []; split; [constructor|reflexivity]).
      destruct (do_ok ltb eqb dflt HT Hd _ [] (LUpdate l) HI eq_refl I) as (c' & E & HR' & HS').
      unfold sl_do in E. cbn [sl_step sp_step fst snd] in *. unfold observe in E. unfold sl_new. unfold sl_init in E.
      destruct (sl_update (total2 ltb) l (core_empty dflt)) as [[u|e] c1]; [|discriminate].
      assert (c1 = c') by congruence. subst. cbn. auto.
    - assert (HI : skl_reach (keyfn key k) ltb eqb ltb eqb dflt (skl_init dflt)) by (exists []; split; [constructor|reflexivity]).
      destruct (kdo_ok (keyfn key k) ltb eqb ltb eqb dflt HT (keyfn_compat k) Hd _ [] (KList (LUpdate l)) HI eq_refl I (kcmp_any _)) as (c' & E & HR' & HS').
      unfold skl_do in E. cbn [skl_step skl_lstep sp_kstep sp_step fst snd] in *. unfold observe in E. rewrite keyof_total. unfold skl_new. unfold skl_init in E.
      destruct (skl_update (total2 ltb) (total1 (keyfn key k)) l (skl_empty dflt)) as [[u|e] c1]; [|discriminate].
      assert (c1 = c') by congruence. subst. cbn. auto.
  Qed.
  Lemma val_cont x y : is_val x y -> v_cont x = snd y.
  Proof. destruct x as [c|k s]; intros (_ & _ & HS); apply shows_iff, HS. Qed.
  Lemma val_kind x y : is_val x y -> v_kind x = fst y.
  Proof. destruct x as [c|k s]; intros (-> & _ & HS); reflexivity. Qed.
  Lemma val_compare op x y l : is_val x y -> fst (observe (@RBool V) (compare (total2 ltb) (total2 eqb) op l) (v_core x)) = RBool (sp_compare eqb ltb op (snd y) l).
  Proof.
    intros Hx. pose proof (val_cont x y Hx) as Ec. unfold v_cont in Ec. unfold observe. rewrite (compare_ok ltb eqb), Ec; [reflexivity| |intros; exact HT].
    destruct x as [c|k s]; destruct Hx as (_ & HR & _); cbn [v_core] in *.
    - apply co_len, lshape_core, (reach_inv ltb eqb dflt HT Hd c HR).
    - destruct (kreach_inv (keyfn key k) ltb eqb ltb eqb dflt HT (keyfn_compat k) Hd s HR) as [(rs & _ & E) _]. exact E.
  Qed.
  Lemma val_cmp op x y a b : is_val x y -> arel is_val a b -> v_cmp (total2 ltb) (total2 eqb) op x a = s_cmp ltb eqb op y b.
  Proof.
    intros Hx Ha. unfold s_cmp.
    assert (G : fst (observe (@RBool V) (compare (total2 ltb) (total2 eqb) op (q_vals v_cont a)) (v_core x)) = RBool (sp_compare eqb ltb op (snd y) (q_vals snd b))).
    { rewrite (val_compare op x y _ Hx), (vals_eq v_cont snd is_val val_cont a b Ha). reflexivity. }
    destruct x as [c|k s]; [|exact G]. destruct a as [l|[c2|k2 s2]]; try exact G. destruct b as [l|y2]; cbn in Ha; [contradiction|].
    unfold v_cmp. rewrite <- (sp_compare_flip ltb eqb op (snd y) (q_vals snd (inr y2)) HT). cbn [q_vals].
    change (contents c) with (v_cont (VList c)). rewrite (val_cont (VList c) y Hx). exact (val_compare (cmp_flip op) (VKey k2 s2) y2 (snd y) Ha).
  Qed.
  Lemma values_lists ops : Forall mop_ok ops ->
    fst (mixed_values (total2 ltb) (total2 eqb) kfn dflt ops ([], [])) = fst (mixed_lists ltb eqb key ops ([], [])) /\
    wrel is_val (snd (mixed_values (total2 ltb) (total2 eqb) kfn dflt ops ([], []))) (snd (mixed_lists ltb eqb key ops ([], []))).
  Proof.
    intros HF. unfold mixed_values, mixed_lists. apply run_steps.
    - exact val_step.
    - exact val_fresh.
    - exact val_cont.
    - exact val_kind.
    - exact val_cmp.
    - split; [constructor|reflexivity].
    - exact HF.
  Qed.
End Total.

Lemma c87_values : forall (V : Type) (lt eq : V -> V -> res bool) (kfn : nat -> V -> res V) (dflt : nat) (ops : list (mop V)) outs (w : mworld V) outs' objs users,
  Forall msimple ops ->
  mw_run lt eq kfn dflt ops mw_init = (outs, w) -> mixed_values lt eq kfn dflt ops ([], []) = (outs', (objs, users)) ->
  outs = outs' /\ map (fun o => mview (m_heap w, o)) (m_objs w) = objs /\ map (cell (m_heap w)) (m_user w) = users /\
  NoDup (flat_map mrefs (m_objs w) ++ m_user w).
Proof.
  intros V lt eq kfn dflt ops outs w outs' objs users HF E1 E2.
  destruct (world_run lt eq kfn dflt ops mw_init ([], []) rel_init HF) as [A B].
  rewrite E1, E2 in A. rewrite E1, E2 in B. cbn [fst snd] in *.
  split; [exact A|]. split; [exact (rel_objs w _ B)|]. split; [exact (rel_lists w _ B)|exact (rel_distinct w _ B)].
Qed.

Definition m_shown {V} (w : mworld V) : list (cls * list V) * list (list V) :=
  (map (fun o => (class_of o, elems (m_heap w) (HRows (m_rows o)))) (m_objs w), map (cell (m_heap w)) (m_user w)).
Lemma shown_view {V} (h : heap V) o : (v_kind (mview (h, o)), v_cont (mview (h, o))) = (class_of o, elems h (HRows (m_rows o))).
Proof. destruct o; reflexivity. Qed.
Lemma simple_of_ok {V} (o : mop V) : mop_ok o -> msimple o.
Proof. destruct o as [[]| |i [o| | |]|]; cbn; tauto. Qed.
Lemma shown_lists {V} (ltb eqb : V -> V -> bool) (key : nat -> V -> V) (dflt : nat) (ops : list (mop V)) :
  TotalOrder ltb eqb -> (forall n, EqCompat (by_key (key n) ltb) eqb) -> 1 <= dflt -> Forall mop_ok ops ->
  let p := mw_run (total2 ltb) (total2 eqb) (fun n => total1 (key n)) dflt ops mw_init in
  fst p = fst (mixed_lists ltb eqb key ops ([], [])) /\ m_shown (snd p) = snd (mixed_lists ltb eqb key ops ([], [])).
Proof.
  intros HT HE Hd HF. cbv zeta. assert (HF' : Forall msimple ops) by (eapply Forall_impl; [|exact HF]; intros o; apply simple_of_ok).
  destruct (world_run (total2 ltb) (total2 eqb) (fun n => total1 (key n)) dflt ops mw_init ([], []) rel_init HF') as [A B].
  destruct (values_lists ltb eqb key dflt HT HE Hd ops HF) as [C D].
  split; [rewrite A; exact C|]. unfold m_shown. rewrite (rel_lists _ _ B), (proj2 D).
  pose proof (rel_objs _ _ B) as E. pose proof (proj1 D) as F. rewrite <- E in F. clear - F.
  destruct (snd (mixed_lists ltb eqb key ops ([], []))) as [objs users]. cbn [fst snd] in *. f_equal.
  revert objs F. generalize (m_objs (snd (mw_run (total2 ltb) (total2 eqb) (fun n => total1 (key n)) dflt ops mw_init))). intros l.
  induction l as [|o l IH]; intros objs F; cbn [map] in *; inversion F; subst; [reflexivity|]. f_equal; [|apply IH; assumption].
  etransitivity; [symmetry; apply shown_view|]. destruct y as [c v]. rewrite (val_kind _ _ _ _ _ _ H1), (val_cont _ _ _ _ _ _ H1). reflexivity.
Qed.
Lemma c87_lists : forall (V : Type) (ltb eqb : V -> V -> bool) (key : nat -> V -> V) (dflt : nat) (ops : list (mop V)) outs w outs' objs users,
  TotalOrder ltb eqb -> (forall n, EqCompat (by_key (key n) ltb) eqb) -> 1 <= dflt -> Forall mop_ok ops ->
  mw_run (total2 ltb) (total2 eqb) (fun n => total1 (key n)) dflt ops mw_init = (outs, w) ->
  mixed_lists ltb eqb key ops ([], []) = (outs', (objs, users)) ->
  outs = outs' /\ map (fun o => (class_of o, elems (m_heap w) (HRows (m_rows o)))) (m_objs w) = objs /\
  map (cell (m_heap w)) (m_user w) = users.
Proof.
  intros V ltb eqb key dflt ops outs w outs' objs users HT HE Hd HF E1 E2.
  destruct (shown_lists ltb eqb key dflt ops HT HE Hd HF) as [A B]. rewrite E1, E2 in A, B. cbn [fst snd] in A, B.
  unfold m_shown in B. injection B as B1 B2. auto.
Qed.

(** ** One more operation on a reached world *)
Section Next.
  Context {V : Type}.
  Variables ltb eqb : V -> V -> bool.
  Variable key : nat -> V -> V.
  Variable dflt : nat.
  Hypothesis HT : TotalOrder ltb eqb.
  Hypothesis HE : forall n, EqCompat (by_key (key n) ltb) eqb.
  Hypothesis Hd : 1 <= dflt.
  Notation do o w := (mop_step (total2 ltb) (total2 eqb) (fun n => total1 (key n)) dflt o w).
  Notation ref o r := (q_step (s_step ltb eqb key) (s_fresh ltb key) snd fst (s_cmp ltb eqb) o r).
  Lemma shown_next (w : mworld V) o : mixed_reach ltb eqb key dflt w -> mop_ok o ->
    fst (do o w) = fst (ref o (m_shown w)) /\ m_shown (snd (do o w)) = snd (ref o (m_shown w)) /\ mixed_reach ltb eqb key dflt (snd (do o w)).
  Proof.
    intros (ops & HF & ->) Ho. assert (HF' : Forall mop_ok (ops ++ [o])) by (apply Forall_app; auto).
    destruct (shown_lists ltb eqb key dflt ops HT HE Hd HF) as [A B]. destruct (shown_lists ltb eqb key dflt (ops ++ [o]) HT HE Hd HF') as [C D].
    assert (HR : mixed_reach ltb eqb key dflt (snd (mw_run (total2 ltb) (total2 eqb) (fun n => total1 (key n)) dflt (ops ++ [o]) mw_init)))
      by (exists (ops ++ [o]); auto).
    unfold mw_run, mixed_lists, q_run in *. rewrite !run_app in C, D. rewrite run_app in HR. rewrite B. cbn [run fst snd] in C, D, HR.
    destruct (do o _) as [r w'], (ref o _) as [r' u']. cbn [fst snd] in *. rewrite A in C. apply app_inv_head in C. injection C as ->. auto.
  Qed.
End Next.
Section Has.
  Context {V : Type}.
  Lemma has_shown (w : mworld V) i c l : m_has w i c l <-> nth_error (fst (m_shown w)) i = Some (c, l).
  Proof.
    unfold m_has, m_shown. cbn [fst]. rewrite nth_error_map. split.
    - intros (o & -> & <- & <-). reflexivity.
    - destruct (nth_error (m_objs w) i) as [o|]; cbn; [|discriminate]. intros H. injection H as <- <-. exists o. auto.
  Qed.
  Lemma has_get (w : mworld V) i c l : m_has w i c l -> getn (fst (m_shown w)) i = Ok (c, l).
  Proof. intros H. apply has_shown, getn_nth in H. exact H. Qed.
  Lemma has_old (w w' : mworld V) x : fst (m_shown w') = fst (m_shown w) ++ [x] -> forall n c l, m_has w n c l -> m_has w' n c l.
  Proof. intros E n c l H. apply has_shown in H. apply has_shown. rewrite E, nth_error_app1; [exact H|]. apply nth_error_Some. congruence. Qed.
  Lemma has_new (w w' : mworld V) x : fst (m_shown w') = fst (m_shown w) ++ [x] -> m_has w' (length (m_objs w)) (fst x) (snd x).
  Proof.
    intros E. apply has_shown. rewrite E. replace (length (m_objs w)) with (length (fst (m_shown w))) by (unfold m_shown; cbn; apply map_length).
    rewrite nth_error_app2, Nat.sub_diag by lia. destruct x. reflexivity.
  Qed.
End Has.

Lemma c88_sum : forall (V : Type) (ltb eqb : V -> V -> bool) (key : nat -> V -> V) (dflt : nat) (w : mworld V) i j k lx ly,
  TotalOrder ltb eqb -> (forall n, EqCompat (by_key (key n) ltb) eqb) -> 1 <= dflt -> mixed_reach ltb eqb key dflt w ->
  m_has w i CList lx -> m_has w j (CKey k) ly ->
  let do o := mop_step (total2 ltb) (total2 eqb) (fun n => total1 (key n)) dflt (MW o) w in
  exists w1 w2 z, do (WPlus i (WObj j)) = (RUnit, w1) /\ do (WPlus j (WObj i)) = (RUnit, w2) /\
    stable_sort_of (by_key (keyfn key k) ltb) (ly ++ lx) z /\
    m_has w1 (length (m_objs w)) (CKey k) z /\ m_has w2 (length (m_objs w)) (CKey k) z /\
    forall n c l, m_has w n c l -> m_has w1 n c l /\ m_has w2 n c l.
Proof.
  intros V ltb eqb key dflt w i j k lx ly HT HE Hd HR Hx Hy. cbv zeta.
  destruct (shown_next ltb eqb key dflt HT HE Hd w (MW (WPlus i (WObj j))) HR I) as (A1 & B1 & _).
  destruct (shown_next ltb eqb key dflt HT HE Hd w (MW (WPlus j (WObj i))) HR I) as (A2 & B2 & _).
  cbn [mop_step] in *. destruct (mw_step _ _ _ _ (WPlus i (WObj j)) w) as [r1 w1], (mw_step _ _ _ _ (WPlus j (WObj i)) w) as [r2 w2]. cbn [fst snd] in *.
  exists w1, w2, (sp_sort (by_key (keyfn key k) ltb) (ly ++ lx)).
  cbn [q_step] in *. unfold q_with, q_arg, q_new in *. rewrite (has_get w i _ _ Hx), (has_get w j _ _ Hy) in *. cbn [rbind] in *.
  cbn [q_sum fst snd q_make s_fresh] in *. unfold q_make in *. cbn [s_fresh fst snd] in *.
  subst r1 r2. split; [reflexivity|]. split; [reflexivity|]. split; [apply sp_sort_stable, by_key_swo, (to_swo HT)|].
  apply (f_equal fst) in B1, B2. cbn [fst] in B1, B2.
  split; [exact (has_new _ _ _ B1)|]. split; [exact (has_new _ _ _ B2)|]. intros n c l H. split; [exact (has_old _ _ _ B1 _ _ _ H)|exact (has_old _ _ _ B2 _ _ _ H)].
Qed.
Lemma c88_iadd : forall (V : Type) (ltb eqb : V -> V -> bool) (key : nat -> V -> V) (dflt : nat) (w : mworld V) i j ci cj lx ly,
  TotalOrder ltb eqb -> (forall n, EqCompat (by_key (key n) ltb) eqb) -> 1 <= dflt -> mixed_reach ltb eqb key dflt w ->
  m_has w i ci lx -> m_has w j cj ly ->
  let less := match ci with CList => ltb | CKey k => by_key (keyfn key k) ltb end in
  exists w' z, mop_step (total2 ltb) (total2 eqb) (fun n => total1 (key n)) dflt (MW (WIAdd i (WObj j))) w = (RUnit, w') /\
    stable_sort_of less (lx ++ ly) z /\ m_has w' i ci z /\ (forall n c l, n <> i -> m_has w n c l -> m_has w' n c l).
Proof.
  intros V ltb eqb key dflt w i j ci cj lx ly HT HE Hd HR Hx Hy less.
  destruct (shown_next ltb eqb key dflt HT HE Hd w (MW (WIAdd i (WObj j))) HR I) as (A1 & B1 & _).
  cbn [mop_step] in *. destruct (mw_step _ _ _ _ (WIAdd i (WObj j)) w) as [r1 w1]. cbn [fst snd] in *.
  exists w1, (sp_sort less (lx ++ ly)). cbn [q_step] in *. unfold q_with, q_arg, q_on in *. rewrite (has_get w j _ _ Hy) in *. cbn [rbind] in *.
  rewrite (has_get w i _ _ Hx) in *. cbn [q_vals snd] in *.
  assert (E : s_step ltb eqb key (KList (LIAdd ly)) (ci, lx) = (RUnit, (ci, sp_sort less (lx ++ ly)))).
  { unfold s_step, less. cbn [fst snd]. destruct ci as [|k]; reflexivity. }
  rewrite E in A1, B1. cbn [fst snd] in *. subst r1. split; [reflexivity|]. split.
  { apply sp_sort_stable. unfold less. destruct ci; [apply (to_swo HT)|apply by_key_swo, (to_swo HT)]. }
  apply (f_equal fst) in B1. cbn [fst] in B1. apply has_shown in Hx. assert (HL : i < length (fst (m_shown w))) by (apply nth_error_Some; congruence).
  split.
  - apply has_shown. rewrite B1, nth_replace by exact HL. rewrite Nat.eqb_refl. reflexivity.
  - intros n c l Hn H. apply has_shown in H. apply has_shown. rewrite B1, nth_replace by exact HL. destruct (Nat.eqb_spec i n); [congruence|exact H].
Qed.
Lemma c88_compare : forall (V : Type) (ltb eqb : V -> V -> bool) (key : nat -> V -> V) (dflt : nat) (w : mworld V) i j ci cj lx ly op,
  TotalOrder ltb eqb -> (forall n, EqCompat (by_key (key n) ltb) eqb) -> 1 <= dflt -> mixed_reach ltb eqb key dflt w ->
  m_has w i ci lx -> m_has w j cj ly ->
  exists w', mop_step (total2 ltb) (total2 eqb) (fun n => total1 (key n)) dflt (MW (WCompare i op (WObj j))) w =
      (RBool (sp_compare eqb ltb op lx ly), w') /\
    (forall n c l, m_has w n c l <-> m_has w' n c l).
Proof.
  intros V ltb eqb key dflt w i j ci cj lx ly op HT HE Hd HR Hx Hy.
  destruct (shown_next ltb eqb key dflt HT HE Hd w (MW (WCompare i op (WObj j))) HR I) as (A1 & B1 & _).
  cbn [mop_step] in *. destruct (mw_step _ _ _ _ (WCompare i op (WObj j)) w) as [r1 w1]. cbn [fst snd] in *.
  exists w1. cbn [q_step] in *. unfold q_with, q_arg in *. rewrite (has_get w j _ _ Hy) in *. cbn [rbind] in *.
  rewrite (has_get w i _ _ Hx) in *. cbn [q_vals fst snd] in *. subst r1. split; [reflexivity|].
  intros n c l. rewrite !has_shown, B1. reflexivity.
Qed.

(** * The lists on a heap do what the lists of Model.v do *)
From Verif Require Import PyBase Model Spec SpecFacts History ListClass ClassSpec ClassFacts ModelSet ModelDict ModelHeap HeapFacts HeapSim HeapSim2 HeapSpec HeapProps ModelKHeap KHeapFacts KHeapSim KHeapSim2 ModelIter IterFacts IterProps ModelViewIter ViewIterSpec.
Local Unset Implicit Arguments.

(** [m1] on related states does what [m2] does, and changes its own state at most as [F] allows. *)
Definition lrel {S1 S2 X} (R : S1 -> S2 -> Prop) (F : S1 -> S1 -> Prop) (m1 : S1 -> X * S1) (m2 : S2 -> X * S2) : Prop :=
  forall s1 s2, R s1 s2 -> fst (m1 s1) = fst (m2 s2) /\ R (snd (m1 s1)) (snd (m2 s2)) /\ F s1 (snd (m1 s1)).
Definition anyhow {S} : S -> S -> Prop := fun _ _ => True.
(** The internal lists stay, with what they hold. *)
Definition still {S V K} (T : hlist S V K) (s s' : S) : Prop :=
  hl_rows T s' = hl_rows T s /\ forall r, In r (hl_rows T s) -> cell (hl_heap T s') r = cell (hl_heap T s) r.

Record ClsSim {S1 S2 V K} (T1 : hlist S1 V K) (T2 : listcls S2 V K) (R : S1 -> S2 -> Prop) : Prop := {
  s_new : forall l, match l_new T1 l, l_new T2 l with Ok a, Ok b => R a b | Err e, Err e' => e = e' | _, _ => False end;
  s_add : forall v, lrel R anyhow (l_add T1 v) (l_add T2 v);
  s_clear : lrel R anyhow (l_clear T1) (l_clear T2);
  s_update : forall l, lrel R anyhow (l_update T1 l) (l_update T2 l);
  s_remove : forall v, lrel R anyhow (l_remove T1 v) (l_remove T2 v);
  s_pop : forall i, lrel R anyhow (l_pop T1 i) (l_pop T2 i);
  s_del : forall i, lrel R anyhow (l_del T1 i) (l_del T2 i);
  s_del_slice : forall sl, lrel R anyhow (l_del_slice T1 sl) (l_del_slice T2 sl);
  s_fwd : forall f, lrel R (match f with FReset _ => anyhow | _ => still T1 end) (l_fwd T1 f) (l_fwd T2 f);
  s_get : forall i, lrel R (still T1) (l_get T1 i) (l_get T2 i);
  s_slice : forall sl, lrel R (still T1) (l_slice T1 sl) (l_slice T2 sl);
  s_iter : lrel R (still T1) (l_iter T1) (l_iter T2);
  s_reversed : lrel R (still T1) (l_reversed T1) (l_reversed T2);
  s_len : lrel R (still T1) (l_len T1) (l_len T2);
  s_rows : forall s, fst (l_iter T1 s) = Ok (concat (map (cell (hl_heap T1 s)) (hl_rows T1 s))) }.

Lemma still_refl {S V K} (T : hlist S V K) s : still T s s.
Proof. split; auto. Qed.
Lemma still_trans {S V K} (T : hlist S V K) a b c : still T a b -> still T b c -> still T a c.
Proof. intros [H1 H2] [H3 H4]. split; [congruence|]. intros r Hr. rewrite H4 by (rewrite H1; exact Hr). auto. Qed.

Section Plain.
  Context {V K : Type}.
  Variables lt eq : V -> V -> res bool.
  Variable dflt : nat.
  Notation ST := (heap V * hsl V)%type.
  Definition hrel (s : ST) (c : core V V) : Prop := good s /\ view s = c.
  Notation T1 := (hplain (K:=K) lt eq dflt).
  Notation T2 := (plain (K:=K) lt eq dflt).

  Lemma lrel_sim {X} (m : M (core V V) X) hm : (forall n, sim n any HeapFacts.same m hm) -> lrel hrel anyhow hm m.
  Proof.
    intros H s c [HG <-]. destruct (H (length (fst s)) s HG (le_n _) I) as (E & G & _ & X0). split; [|split; [split; [exact G|exact E]|exact I]].
    destruct (fst (m (view s))), (fst (hm s)); try contradiction; unfold HeapFacts.same in X0; congruence.
  Qed.
  Lemma lrel_still {X} (m : M (core V V) X) hm : lrel hrel anyhow hm m -> keeps m -> quiet hm -> lrel hrel (still T1) hm m.
  Proof.
    intros H HK HQ s c HR. pose proof HR as [HG <-]. destruct (H s _ HR) as (E & [G E2] & _). split; [exact E|]. split; [split; assumption|].
    specialize (HQ s). split; [exact HQ|]. specialize (HK (view s)). rewrite <- E2 in HK. destruct s as [h o]. destruct (snd (hm (h, o))) as [h' o'].
    cbn [fst snd hl_rows hl_heap hplain] in *. cbn in HK. rewrite HQ in HK. exact (map_eq_in _ _ _ HK).
  Qed.
  Lemma lrel_reading {X} (m : M (core V V) X) : keeps m -> lrel hrel (still T1) (reading m) m.
  Proof. intros H. apply lrel_still; [apply lrel_sim, sim_reading, H|exact H|apply quiet_reading]. Qed.
  Lemma lrel_observe {X} (inj : X -> out V) F hm (m : M (core V V) X) : lrel hrel F hm m -> lrel hrel F (observe inj hm) (observe inj m).
  Proof.
    intros H s c HR. destruct (H s c HR) as (E & R & HF). unfold observe. destruct (hm s) as [[x|e] s'], (m c) as [[y|e'] c']; cbn in *; try discriminate;
      (split; [congruence|split; assumption]).
  Qed.

  Lemma plain_sim : ClsSim T1 T2 hrel.
  Proof.
    constructor; cbn [hl_cls hplain plain l_new l_add l_clear l_update l_remove l_pop l_get l_slice l_del l_del_slice l_iter l_reversed l_len l_fwd].
    - intros l. unfold own_heap. destruct (new_sim lt dflt (HList 0) l [l] (Logic.eq_refl)) as (_ & _ & H).
      destruct (sl_new lt dflt l), (h_new lt dflt (HList 0) [l]) as [[o|e1] h]; cbn in *; try contradiction; [|congruence]. split; apply H.
    - intros v. apply lrel_sim, sim_add.
    - apply lrel_sim, sim_clear.
    - intros l. intros s c [HG <-]. set (n := length (fst s)). unfold bind.
      destruct (hdo_alloc n any l any_stable s HG (le_n _) I) as (r & s1 & -> & Ea & Ga & Fa & Xa & _).
      destruct (sim_update_list lt n r l s1 Ga) as (E & G & F & X0); [destruct Fa; lia|exact Xa|]. rewrite Ea in *.
      split; [|split; [split; [exact G|exact E]|exact I]].
      destruct (fst (sl_update lt l (view s))), (fst (h_update lt (HList r) s1)); try contradiction; unfold HeapFacts.same in X0; congruence.
    - intros v. apply lrel_sim, sim_remove.
    - intros i. apply lrel_sim, sim_pop.
    - intros i. apply lrel_sim, sim_delitem.
    - intros sl. apply lrel_sim, sim_delitem_slice.
    - destruct f; cbn [fwd_op h_step sl_step].
      all: try (apply lrel_observe, lrel_reading; first [apply keeps_bisect_left|apply keeps_bisect_right|apply keeps_index|apply keeps_irange|apply keeps_islice]).
      + apply lrel_observe, lrel_sim, sim_reset.
      + intros s c HR. split; [reflexivity|]. split; [exact HR|apply still_refl].
      + intros s c HR. split; [reflexivity|]. split; [exact HR|apply still_refl].
      + intros s c HR. split; [reflexivity|]. split; [exact HR|apply still_refl].
    - intros i. apply lrel_reading, keeps_getitem.
    - intros sl. apply lrel_still; [|apply keeps_slice|].
      + intros s c [HG <-]. destruct (sim_getitem_slice (length (fst s)) sl s HG (le_n _) I) as (E & G & F & X0). unfold bind, h_cell.
        destruct (h_getitem_slice sl s) as [[r|e] s'], (getitem_slice sl (view s)) as [[v|e'] c']; cbn in *; try contradiction.
        * split; [f_equal; apply X0|]. split; [split; assumption|exact I].
        * split; [congruence|]. split; [split; assumption|exact I].
      + apply quiet_bind; [apply quiet_slice|]. intros. apply quiet_cell.
    - apply lrel_reading. keep.
    - apply lrel_reading. keep.
    - apply lrel_reading. keep.
    - intros [h o]. reflexivity.
  Qed.
End Plain.

Section Keyed.
  Context {V : Type}.
  Variables lt eq : V -> V -> res bool.
  Variable kf : V -> res V.
  Variable dflt : nat.
  Notation ST := (heap V * khsl V)%type.
  Definition khrel (s : ST) (c : skl V V) : Prop := kgood s /\ kview s = c.
  Notation T1 := (hkeyed lt eq kf dflt).
  Notation T2 := (keyed eq lt eq kf dflt).

  Lemma klrel_sim {X} (m : M (skl V V) X) hm : (forall n, ksim n kany ksame m hm) -> lrel khrel anyhow hm m.
  Proof.
    intros H s c [HG <-]. destruct (H (length (fst s)) s HG (le_n _) I) as (E & G & _ & X0). split; [|split; [split; [exact G|exact E]|exact I]].
    destruct (fst (m (kview s))), (fst (hm s)); try contradiction; unfold ksame in X0; congruence.
  Qed.
  Definition kquiet {X} (hm : M ST X) : Prop := forall s, rows (kbase (snd (snd (hm s)))) = rows (kbase (snd s)).
  Lemma kquiet_base {X} (m : M (heap V * hsl V) X) : quiet m -> kquiet (onbase m).
  Proof. intros H [h o]. unfold onbase, zoom. specialize (H (h, kbase o)). cbn [fst snd] in *. destruct (m (h, kbase o)) as [x [h' b]]. exact H. Qed.
  Lemma kquiet_reading {X} (m : M (skl V V) X) : kquiet (kreading m).
  Proof. intros [h o]. unfold kreading, zoom. destruct (m _). reflexivity. Qed.
  Lemma klrel_still {X} (m : M (skl V V) X) hm : lrel khrel anyhow hm m -> (forall c, lists (kc (snd (m c))) = lists (kc c)) -> kquiet hm ->
    lrel khrel (still T1) hm m.
  Proof.
    intros H HK HQ s c HR. pose proof HR as [HG <-]. destruct (H s _ HR) as (E & [G E2] & _). split; [exact E|]. split; [split; assumption|].
    specialize (HQ s). split; [exact HQ|]. specialize (HK (kview s)). rewrite <- E2 in HK. destruct s as [h o]. destruct (snd (hm (h, o))) as [h' o'].
    cbn [fst snd hl_rows hl_heap hkeyed] in *. cbn in HK. rewrite HQ in HK. exact (map_eq_in _ _ _ HK).
  Qed.
  Lemma kkeeps_lists {X} (m : M (skl V V) X) : kkeeps m -> forall c, lists (kc (snd (m c))) = lists (kc c).
  Proof. intros H c. specialize (H c). unfold klists in H. congruence. Qed.
  Lemma klrel_reading {X} (m : M (skl V V) X) : kkeeps m -> lrel khrel (still T1) (kreading m) m.
  Proof. intros H. apply klrel_still; [apply klrel_sim, ksim_reading, H|apply kkeeps_lists, H|apply kquiet_reading]. Qed.
  Lemma klrel_inherit {X} (m : M (core V V) X) : keeps m -> lrel khrel (still T1) (onbase (reading m)) (oncore (skl_vt lt kf) m).
  Proof.
    intros H. apply klrel_still; [apply klrel_sim, ksim_inherit, H|apply kkeeps_lists, kkeeps_oncore, H|apply kquiet_base, quiet_reading].
  Qed.
  Lemma klrel_observe {X} (inj : X -> out V) F hm (m : M (skl V V) X) : lrel khrel F hm m -> lrel khrel F (observe inj hm) (observe inj m).
  Proof.
    intros H s c HR. destruct (H s c HR) as (E & R & HF). unfold observe. destruct (hm s) as [[x|e] s'], (m c) as [[y|e'] c']; cbn in *; try discriminate;
      (split; [congruence|split; assumption]).
  Qed.

  Lemma keyed_sim : ClsSim T1 T2 khrel.
  Proof.
    constructor; cbn [hl_cls hkeyed keyed l_new l_add l_clear l_update l_remove l_pop l_get l_slice l_del l_del_slice l_iter l_reversed l_len l_fwd].
    - intros l. unfold own_heap. destruct (knew_sim lt kf dflt (HList 0) l [l] (Logic.eq_refl)) as (_ & _ & H).
      destruct (skl_new lt kf dflt l), (k_new lt kf dflt (HList 0) [l]) as [[o|e1] h]; cbn in *; try contradiction; [|congruence]. split; apply H.
    - intros v. apply klrel_sim, ksim_add.
    - apply klrel_sim, ksim_clear.
    - intros l. intros s c [HG <-]. set (n := length (fst s)). unfold bind.
      destruct (khdo_alloc n kany l kany_stable s HG (le_n _) I) as (r & s1 & -> & Ea & Ga & Fa & Xa & _).
      destruct (ksim_update_list lt kf n r l s1 Ga) as (E & G & F & X0); [destruct Fa; lia|exact Xa|]. rewrite Ea in *.
      split; [|split; [split; [exact G|exact E]|exact I]].
      destruct (fst (skl_update lt kf l (kview s))), (fst (k_update lt kf (HList r) s1)); try contradiction; unfold ksame in X0; congruence.
    - intros v. apply klrel_sim, ksim_remove.
    - intros i. apply klrel_sim, ksim_pop.
    - intros i. apply klrel_sim, ksim_delitem.
    - intros sl. apply klrel_sim, ksim_delitem_slice.
    - destruct f; cbn [fwd_op k_step skl_step skl_lstep].
      all: try (apply klrel_observe, klrel_reading; first [apply kkeeps_bisect_left|apply kkeeps_bisect_right|apply kkeeps_index|apply kkeeps_irange
                  |apply kkeeps_bisect_key_left|apply kkeeps_bisect_key_right|apply kkeeps_irange_key]).
      + apply klrel_observe, klrel_inherit, keeps_islice.
      + apply klrel_observe, klrel_sim, ksim_reset.
    - intros i. apply klrel_inherit, keeps_getitem.
    - intros sl. apply klrel_still.
      + intros s c [HG <-]. destruct (ksim_getitem_slice lt kf (length (fst s)) sl s HG (le_n _) I) as (E & G & F & X0). unfold bind.
        destruct (k_getitem_slice sl s) as [[r|e] s'], (oncore (skl_vt lt kf) (getitem_slice sl) (kview s)) as [[v|e'] c']; cbn in *; try contradiction.
        * replace (fst s', {| kbase := kbase (snd s'); krows := krows (snd s') |}) with s' by (destruct s' as [h' [b' q']]; reflexivity).
          split; [f_equal; apply X0|]. split; [split; assumption|exact I].
        * split; [congruence|]. split; [split; assumption|exact I].
      + apply kkeeps_lists, kkeeps_oncore, keeps_slice.
      + intros s. unfold bind. pose proof (kquiet_base _ (quiet_slice 2 sl) s) as H. unfold k_getitem_slice, h_getitem_slice.
        destruct (onbase (h_getitem_slice_rec 2 sl) s) as [[r|e] s']; cbn [fst snd] in *; [|exact H]. rewrite <- H. destruct s' as [h' [b' q']]. reflexivity.
    - apply klrel_inherit. keep.
    - apply klrel_inherit. keep.
    - apply klrel_inherit. keep.
    - intros [h [o ks]]. reflexivity.
  Qed.
End Keyed.

(** Every class of lists on a heap has its class of lists. *)
Lemma heap_class_sim {S V K} (T1 : hlist S V K) ltb eqb fref dflt : heap_class T1 ltb eqb fref dflt ->
  exists S2 (T2 : listcls S2 V K) R, list_class T2 ltb eqb fref dflt /\ ClsSim T1 T2 R.
Proof.
  intros []; eexists _, _, _; (split; [|first [apply plain_sim|apply keyed_sim]]).
  - constructor; assumption.
  - constructor; try assumption. eapply to_equiv; eassumption.
Qed.

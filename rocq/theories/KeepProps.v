(** * Lemmas for the property theorems about kept iterators over SortedKeyLists, SortedSets and SortedDicts *)
From Coq Require Import Permutation.
From Verif Require Import PyBase Model Spec BaseFacts SpecFacts History Reach ListClass ClassSpec ClassFacts ModelSet SetSpec SetFacts SetProps ModelDict DictSpec MapFacts DictFacts ModelHeap HeapFacts HeapSim HeapSim2 HeapProps ModelKHeap KHeapFacts KHeapSim KHeapSim2 ModelIter IterFacts IterSpec IterProps ModelViewIter ViewIterSpec HeapClass ViewIterFacts ViewIterProps HeapSpec MixedFacts HistFacts Concrete ModelKeep KeepSpec KeepFacts KeepSetFacts.
Local Unset Implicit Arguments.

(** ** Any object *)
Section Gen.
  Context {S1 V K Ob Op Out D : Type}.
  Variable T1 : ilist S1 V K.
  Variable do_ : Op -> Ob -> Out * Ob.
  Variable list_of : Ob -> S1.
  Variable set_list : S1 -> Ob -> Ob.
  Variable fref : fwd V K -> list V -> out V * list V.
  Variable eff : Op -> D -> Out -> D -> Prop.
  Variable vals : D -> list V.
  Variable moves : Op -> D -> bool.
  Variable ok : Op -> Prop.
  Variable Inv : Ob -> D -> Prop.
  Hypothesis Hset : forall l x, list_of (set_list l x) = l.
  Hypothesis Hdo : forall o x d, Inv x d -> ok o -> exists r x' d', do_ o x = (r, x') /\ eff o d r d' /\ Inv x' d' /\
    (moves o d = false -> still T1 (list_of x) (list_of x')).
  Hypothesis Hmake : forall m x d, Inv x d -> gives_iterator m ->
    exists l, Inv (set_list l x) d /\ still T1 (list_of x) l /\
      ((exists it l', il_make T1 m (list_of x) = (Ok it, l) /\ ranges fref m (vals d) = Ok l' /\
          itval (hl_heap T1 l) (hl_rows T1 l) it l' /\ (ranged m = false -> Forall whole it)) \/
       exists e, il_make T1 m (list_of x) = (Err e, l) /\ ranges fref m (vals d) = Err e).

  Definition xrel (s : S1) (it : iterator) (y : xrit V) : Prop :=
    match y with
    | XLive b l => itval (hl_heap T1 s) (hl_rows T1 s) it l /\ (b = false -> Forall whole it)
    | XLost b => b = false -> Forall whole it
    | XEnded => it = []
    end.
  Lemma xrel_still s s' it y : still T1 s s' -> xrel s it y -> xrel s' it y.
  Proof.
    intros [H1 H2]. destruct y as [b l| |]; cbn; try (intros H; exact H). intros [H3 H4]. split; [|exact H4]. rewrite H1. exact (itval_ext _ _ _ _ _ H2 H3).
  Qed.
  Lemma xrel_lose s s' it y : xrel s it y -> xrel s' it (x_lose y).
  Proof. destruct y as [b l| |]; cbn; auto. intros [_ H]. exact H. Qed.
  Lemma F2_set (P : iterator -> xrit V -> Prop) l m j x y : Forall2 P l m -> P x y -> j < length l -> Forall2 P (set_iter l j x) (firstn j m ++ y :: skipn (S j) m).
  Proof.
    intros HF HP. revert j. induction HF as [|a b l m Hab HF IH]; intros [|j] Hj; cbn in *; try lia; [constructor; assumption|].
    constructor; [assumption|]. apply IH. lia.
  Qed.
  Lemma F2_set1 (P : iterator -> xrit V -> Prop) l m j x y : Forall2 P l m -> nth_error m j = Some y -> P x y -> Forall2 P (set_iter l j x) m.
  Proof.
    intros HF. revert j. induction HF as [|a b l m Hab HF IH]; intros [|j] Hj HP; cbn in *; try discriminate.
    - injection Hj as ->. constructor; auto.
    - constructor; eauto.
  Qed.
  Definition wrel (s : Ob * list iterator) (r : D * list (xrit V)) : Prop := Inv (fst s) (fst r) /\ Forall2 (xrel (list_of (fst s))) (snd s) (snd r).
  Notation step := (x_step T1 do_ list_of set_list).
  Notation rstep := (xr_step fref eff vals moves).

  Lemma xstep_ok o s r : wrel s r -> xop_ok ok o -> exists out s' r', step o s = (out, s') /\ rstep o r out r' /\ wrel s' r'.
  Proof.
    destruct s as [x its], r as [d rits]. intros [HI HF] Ho. cbn [fst snd] in *. destruct o as [o|m|j]; cbn [x_step].
    - destruct (Hdo o x d HI Ho) as (r & x' & d' & -> & He & HI' & Hc). eexists _, _, _. split; [reflexivity|]. split; [constructor; exact He|].
      split; [exact HI'|]. cbn [fst snd]. destruct (moves o d).
      + clear - HF. induction HF; constructor; auto. eapply xrel_lose. eassumption.
      + eapply Forall2_imp; [|exact HF]. intros a b. apply xrel_still, Hc. reflexivity.
    - destruct (Hmake m x d HI Ho) as (l & HI' & Hl & [(it & l' & -> & Er & Hit & Hw)|(e & -> & Er)]); (eexists _, _, _; split; [reflexivity|]; split; [constructor; exact Er|]);
        (split; [exact HI'|]); cbn [fst snd]; rewrite Hset.
      + apply Forall2_app; [|constructor; [split; assumption|constructor]]. eapply Forall2_imp; [|exact HF]. intros a b. apply xrel_still, Hl.
      + eapply Forall2_imp; [|exact HF]. intros a b. apply xrel_still, Hl.
    - pose proof (Forall2_nth _ _ _ j HF) as Hj. unfold getn. destruct (nth_error its j) as [it|] eqn:Ex, (nth_error rits j) as [y|] eqn:Ey; try contradiction.
      + assert (Hl : j < length its) by (apply nth_error_Some; congruence). destruct y as [b l|b|]; cbn [xrel] in Hj.
        * destruct Hj as [Hit Hw]. pose proof (next_ok _ _ _ _ Hit) as Hn. destruct l as [|v l].
          -- rewrite Hn. eexists _, _, _. split; [reflexivity|]. split; [eapply xr_stop; exact Ey|]. split; [exact HI|]. apply F2_set; [exact HF|reflexivity|exact Hl].
          -- destruct Hn as (it' & E & Hit'). rewrite E. eexists _, _, _. split; [reflexivity|]. split; [eapply xr_value; exact Ey|]. split; [exact HI|].
             apply F2_set; [exact HF| |exact Hl]. split; [exact Hit'|]. intros Hb. destruct (next_total (hl_heap T1 (list_of x)) (hl_rows T1 (list_of x)) it (Hw Hb)) as (v' & it2 & E2 & H2).
             rewrite E in E2. injection E2 as _ ->. exact H2.
        * destruct (next (hl_heap T1 (list_of x)) (hl_rows T1 (list_of x)) it) as [[[v|]|e] it'] eqn:E.
          -- eexists _, _, _. split; [reflexivity|]. split; [eapply xr_lost_value; exact Ey|]. split; [exact HI|]. eapply F2_set1; [exact HF|exact Ey|].
             intros Hb. destruct (next_total (hl_heap T1 (list_of x)) (hl_rows T1 (list_of x)) it (Hj Hb)) as (v' & it2 & E2 & H2). rewrite E in E2. injection E2 as _ ->. exact H2.
          -- eexists _, _, _. split; [reflexivity|]. split; [eapply xr_lost_stop; exact Ey|]. split; [exact HI|]. apply F2_set; [exact HF| |exact Hl].
             clear - E. revert it' E. induction it as [|s it IH]; cbn [next]; intros it' E; [injection E as <-; reflexivity|].
             destruct (seg_next (hl_heap T1 (list_of x)) (hl_rows T1 (list_of x)) s) as [[[v|]|e] s']; try discriminate. apply IH, E.
          -- assert (e = IndexError) as -> by exact (next_raises _ _ _ _ _ E). destruct b.
             ++ eexists _, _, _. split; [reflexivity|]. split; [apply xr_lost_error; exact Ey|]. split; [exact HI|]. eapply F2_set1; [exact HF|exact Ey|]. intros Hb. discriminate.
             ++ destruct (next_total (hl_heap T1 (list_of x)) (hl_rows T1 (list_of x)) it (Hj Logic.eq_refl)) as (v' & it2 & E2 & _). rewrite E in E2. discriminate.
        * subst it. cbn [next]. eexists _, _, _. split; [reflexivity|]. split; [eapply xr_ended; exact Ey|]. split; [exact HI|]. eapply F2_set1; [exact HF|exact Ey|reflexivity].
      + eexists _, _, _. split; [reflexivity|]. split; [constructor; exact Ey|]. split; assumption.
  Qed.
  Lemma xrun_ok ops : forall s r, wrel s r -> Forall (xop_ok ok) ops ->
    exists r', xr_run fref eff vals moves ops r (fst (x_run T1 do_ list_of set_list ops s)) r' /\ wrel (snd (x_run T1 do_ list_of set_list ops s)) r'.
  Proof.
    unfold x_run. induction ops as [|o ops IH]; intros s r Hr Ho; [exists r; split; [constructor|exact Hr]|]. inversion Ho as [|? ? H1 H2]; subst.
    cbn [run]. destruct (xstep_ok o s r Hr H1) as (out & s' & r' & E & Hs & Hr'). rewrite E. destruct (IH s' r' Hr' H2) as (r2 & Hrun & Hr2).
    destruct (run step ops s') as [outs s2]. cbn [fst snd] in *. exists r2. split; [econstructor; eassumption|exact Hr2].
  Qed.
End Gen.

(** ** Making an iterator over the list inside *)
Section Made.
  Context {S1 S2 V K : Type}.
  Variable T1 : ilist S1 V K.
  Variable T2 : listcls S2 V K.
  Variable R : S1 -> S2 -> Prop.
  Variables ltb eqb : V -> V -> bool.
  Variable fref : fwd V K -> list V -> out V * list V.
  Variable dflt : nat.
  Variable R2 : S2 -> list V -> Prop.
  Variable ld : S2 -> nat.
  Hypothesis HS : MakeOK T1 T2 R fref.
  Hypothesis HK : ClsOK T2 ltb eqb fref dflt R2 ld.

  Lemma rows_vals s t l : R s t -> R2 t l -> concat (map (cell (hl_heap T1 s)) (hl_rows T1 s)) = l.
  Proof.
    intros Hr HI. pose proof (m_sim _ _ _ _ HS) as HS'. destruct (s_iter _ _ _ HS' _ _ Hr) as (E2 & _ & _). rewrite (s_rows _ _ _ HS') in E2.
    rewrite (k_iter _ _ _ _ _ _ _ HK _ _ HI) in E2. cbn in E2. congruence.
  Qed.
  Lemma made m s t l : R s t -> R2 t l -> gives_iterator m -> exists s' t', R s' t' /\ R2 t' l /\ still T1 s s' /\
    ((exists it l', il_make T1 m s = (Ok it, s') /\ ranges fref m l = Ok l' /\ itval (hl_heap T1 s') (hl_rows T1 s') it l' /\ (ranged m = false -> Forall whole it)) \/
     exists e, il_make T1 m s = (Err e, s') /\ ranges fref m l = Err e).
  Proof.
    intros Hr HI Hm. destruct m as [| |f].
    - exists s, t. split; [exact Hr|]. split; [exact HI|]. split; [apply still_refl|]. left. exists keys_iter, l. split; [apply (m_iter _ _ _ _ HS)|].
      split; [reflexivity|]. split; [rewrite <- (rows_vals s t l Hr HI); apply iter_val|]. intros _. repeat constructor.
    - exists s, t. split; [exact Hr|]. split; [exact HI|]. split; [apply still_refl|]. left. exists (keys_reversed T1 s), (rev l). split; [apply (m_reversed _ _ _ _ HS)|].
      split; [reflexivity|]. split; [rewrite <- (rows_vals s t l Hr HI), <- concat_rev; apply reversed_val|]. intros _. repeat constructor.
    - destruct (m_out _ _ _ _ HS f l Hm) as [[x Hx]|(e & He & Hs)].
      + assert (Hf : fwd_fine f) by (destruct f; try destruct Hm; exact I). destruct (k_fwd _ _ _ _ _ _ _ HK f t l HI Hf) as (t' & E & HI' & _).
        destruct (m_fwd _ _ _ _ HS f s t x Hm Hr) as (it & s' & E1 & Hr' & Hst & Hit); [rewrite E; exact Hx|]. rewrite E in Hr'. cbn [snd] in Hr'.
        exists s', t'. split; [exact Hr'|]. split; [exact HI'|]. split; [exact Hst|]. left. exists it, x. split; [exact E1|]. split; [cbn; rewrite Hx; reflexivity|].
        split; [exact Hit|discriminate].
      + exists s, t. split; [exact Hr|]. split; [exact HI|]. split; [apply still_refl|]. right. exists e. split; [apply Hs|]. cbn. rewrite He. reflexivity.
  Qed.
End Made.

(** ** SortedDict *)
Lemma c93_dict_iterators : forall S A B K (T : ilist S A K) ltb eqb (veqb : B -> B -> bool) fref dflt a ops s0,
  keep_class T ltb eqb fref dflt -> Forall (xop_ok (dop_ok eqb)) ops -> sd_new T eqb a = Ok s0 ->
  exists r, xr_run fref (dict_eff ltb eqb veqb fref) (fun d => map fst (listing ltb d)) (moves eqb) ops (merge eqb [] (pairs_of a), [])
    (fst (dict_run T eqb veqb ops (s0, []))) r.
Proof.
  intros S A B K T ltb eqb veqb fref dflt a ops s0 HT Ho E. destruct (keep_class_sim T ltb eqb fref dflt HT) as (_ & S2 & T2 & Q & HC & HM). cls HC HK.
  pose proof (m_sim _ _ _ _ HM) as HS.
  destruct (xrun_ok T (v_do T eqb veqb) (@d_list S A B) (fun l s => mksd (d_items s) l) fref (dict_eff ltb eqb veqb fref) (fun d => map fst (listing ltb d)) (moves eqb)
    (dop_ok eqb) (ViewIterProps.Inv (B:=B) Q ltb eqb R)) with (ops := ops) (s := (s0, @nil iterator)) (r := (merge eqb [] (pairs_of a), @nil (xrit A))) as (r & Hr & _).
  - reflexivity.
  - intros o x d HI Hk. destruct (inv_do T T2 Q HS ltb eqb veqb fref dflt R ld HK o x d HI Hk) as (x' & E1 & HI' & Hc).
    eexists _, _, _. split; [exact E1|]. split; [split; reflexivity|]. split; [exact HI'|]. intros Hm. apply Hc, Hm.
  - intros m x d (<- & t & [Ei Hr] & HI1 & HI2) Hm.
    destruct (made T T2 Q ltb eqb fref dflt R ld HM HK m (d_list x) (d_list t) _ Hr HI1 Hm) as (s' & t' & H1 & H2 & H3 & H4).
    exists s'. split; [|split; [exact H3|rewrite Ei; exact H4]]. split; [reflexivity|]. exists (mksd (d_items t) t'). split; [split; [exact Ei|exact H1]|]. split; assumption.
  - split; [|constructor]. exact (new_inv T T2 Q HS ltb eqb veqb fref dflt R ld HK a s0 E).
  - exact Ho.
  - exists r. exact Hr.
Qed.

(** ** SortedKeyList *)
Section KeyList.
  Context {V : Type}.
  Variables ltb eqb : V -> V -> bool.
  Variable key : V -> V.
  Variable dflt : nat.
  Hypothesis HT : TotalOrder ltb eqb.
  Hypothesis HC : EqCompat (by_key key ltb) eqb.
  Hypothesis Hd : 1 <= dflt.
  Notation lt := (total2 ltb).
  Notation eq := (total2 eqb).
  Notation kf := (total1 key).
  Notation ST := (heap V * khsl V)%type.
  Notation T1 := (ikeyed lt eq kf dflt).
  Notation kstep := (skl_step lt eq lt eq kf dflt).

  Lemma kl_still o l : kl_ok o -> kl_moves o l = false -> lrel khrel (still T1) (kl_do lt eq kf o) (kstep o).
  Proof.
    intros Ho Hm. pose proof (keyed_sim lt eq kf dflt) as HS.
    destruct o as [o|k|k|mn mx a b r]; [destruct o; try discriminate Hm; try destruct Ho|..]; cbn [kl_do k_step skl_step skl_lstep].
    all: try (apply klrel_observe, klrel_reading; first [apply kkeeps_contains|apply kkeeps_bisect_left|apply kkeeps_bisect_right|apply kkeeps_count|apply kkeeps_index|apply kkeeps_irange
                  |apply kkeeps_bisect_key_left|apply kkeeps_bisect_key_right|apply kkeeps_irange_key]).
    - apply klrel_observe, (s_get _ _ _ HS).
    - apply klrel_observe, (s_slice _ _ _ HS).
    - apply klrel_observe, (s_len _ _ _ HS).
    - apply klrel_observe, (s_iter _ _ _ HS).
    - apply klrel_observe, (s_reversed _ _ _ HS).
    - apply klrel_observe, klrel_inherit, keeps_islice.
    - apply klrel_observe, klrel_inherit, keeps_compare.
    - intros s c HR. split; [reflexivity|]. split; [exact HR|apply still_refl].
  Qed.
  Lemma kl_any o : kl_ok o -> lrel khrel anyhow (kl_do lt eq kf o) (kstep o).
  Proof.
    intros Ho. pose proof (keyed_sim lt eq kf dflt) as HS.
    destruct (kl_moves o []) eqn:Hm.
    - assert (Hs : match o with KList (LUpdate _) | KList (LIAdd _) => True | KList o => simple_op o | _ => True end) by (destruct o as [o|k|k|mn mx a b r]; [destruct o; try discriminate Hm; try destruct Ho; exact I|..]; exact I).
      destruct o as [o|k|k|mn mx a b r]; try discriminate Hm. destruct o; try discriminate Hm.
      all: try (intros s c [HG <-]; match goal with |- context [kl_do _ _ _ ?o] => destruct (kstep_follows lt eq kf dflt o s HG Hs) as (E1 & E2 & G & _) end;
                split; [exact E1|split; [split; [exact G|exact E2]|exact I]]).
      + apply klrel_observe, (s_update _ _ _ HS).
      + apply klrel_observe, (s_update _ _ _ HS).
    - intros s c HR. destruct (kl_still o [] Ho Hm s c HR) as (E1 & E2 & _). split; [exact E1|]. split; [exact E2|exact I].
  Qed.
End KeyList.

Lemma c93_key_list_iterators : forall (V : Type) (ltb eqb : V -> V -> bool) (key : V -> V) dflt l ops s0,
  TotalOrder ltb eqb -> EqCompat (by_key key ltb) eqb -> 1 <= dflt -> Forall (xop_ok kl_ok) ops ->
  l_new (ikeyed (total2 ltb) (total2 eqb) (total1 key) dflt) l = Ok s0 ->
  exists r, xr_run (fwd_keyed key ltb eqb) (kl_eff ltb eqb key) (fun l => l) kl_moves ops (sp_sort (by_key key ltb) l, [])
    (fst (key_list_run (total2 ltb) (total2 eqb) (total1 key) dflt ops (s0, []))) r.
Proof.
  intros V ltb eqb key dflt l ops s0 HT HC Hd Ho E.
  pose proof (keyed_ok key ltb eqb eqb HT (to_equiv _ _ HT) HC dflt Hd) as HK.
  pose proof (keyed_make (total2 ltb) (total2 eqb) (total1 key) ltb eqb key dflt) as HM. pose proof (m_sim _ _ _ _ HM) as HS.
  set (R := KR key ltb) in *.
  destruct (xrun_ok (ikeyed (total2 ltb) (total2 eqb) (total1 key) dflt) (kl_do (total2 ltb) (total2 eqb) (total1 key)) (fun s => s) (fun l _ => l) (fwd_keyed key ltb eqb)
    (kl_eff ltb eqb key) (fun l => l) kl_moves kl_ok (fun s l => exists t, khrel s t /\ R t l)) with (ops := ops) (s := (s0, @nil iterator)) (r := (sp_sort (by_key key ltb) l, @nil (xrit V)))
    as (r & Hr & _).
  - reflexivity.
  - intros o x d (t & Hr & HI) Hk.
    assert (Hk' : kop_ok o) by (destruct o as [o|k|k|mn mx a b r]; [destruct o; try exact I; try exact Hk; destruct Hk|..]; exact I).
    assert (Hc : kcmp_ok ltb eqb o) by (destruct o as [o|k|k|mn mx a b r]; [destruct o; try exact I; intros _; exact HT|..]; exact I).
    destruct HI as [HI <-]. destruct (skl_step_inv key ltb eqb ltb eqb HT HC dflt Hd o t HI Hk' Hc) as (t' & Et & HI' & Ec & _).
    destruct (kl_any ltb eqb key dflt o Hk x t Hr) as (E1 & E2 & _). rewrite Et in *. cbn [fst snd] in *.
    destruct (kl_do (total2 ltb) (total2 eqb) (total1 key) o x) as [r x'] eqn:Ed. cbn [fst snd] in *. subst r. eexists _, x', _. split; [reflexivity|].
    split; [apply surjective_pairing|]. split; [exists t'; split; [exact E2|split; [exact HI'|exact Ec]]|].
    intros Hm. destruct (kl_still ltb eqb key dflt o _ Hk Hm x t Hr) as (_ & _ & H). rewrite Ed in H. exact H.
  - intros m x d (t & Hr & HI) Hm. destruct (made _ _ _ _ _ _ _ _ _ HM HK m x t d Hr HI Hm) as (s' & t' & H1 & H2 & H3 & H4).
    exists s'. split; [exists t'; auto|]. split; [exact H3|exact H4].
  - split; [|constructor]. cbn [fst snd]. pose proof (s_new _ _ _ HS l) as Hn. rewrite E in Hn. destruct (ClassFacts.k_new _ _ _ _ _ _ _ HK l) as (t & Et & HI & _). rewrite Et in Hn. exists t. auto.
  - exact Ho.
  - exists r. exact Hr.
Qed.

(** ** SortedSet *)
Section Set_.
  Context {S1 S2 V K : Type}.
  Variable T1 : ilist S1 V K.
  Variable T2 : listcls S2 V K.
  Variable Q : S1 -> S2 -> Prop.
  Variables ltb eqb : V -> V -> bool.
  Variable fref : fwd V K -> list V -> out V * list V.
  Variable dflt : nat.
  Variable R : S2 -> list V -> Prop.
  Variable ld : S2 -> nat.
  Hypothesis HM : MakeOK T1 T2 Q fref.
  Hypothesis HK : ClsOK T2 ltb eqb fref dflt R ld.
  Variable ord : nat -> list V -> list V.
  Hypothesis HO : any_order ord.
  Let HS : ClsSim T1 T2 Q := m_sim _ _ _ _ HM.

  Definition SetInv (s : sset S1 V) (l : list V) : Prop := exists t, srel Q s t /\ SInv eqb R t l.
  Lemma set_do_ok o s l : SetInv s l -> sop_ok o -> exists r s' l', set_do T1 eqb ord o s = (r, s') /\ set_eff ltb eqb fref o l r l' /\ SetInv s' l' /\
    (set_moves eqb o l = false -> still T1 (s_list s) (s_list s')).
  Proof.
    intros (t & Hr & HI) Ho. destruct (makes_set o) eqn:Em.
    - destruct (ss_makes T1 T2 Q HS eqb ord o Em s t Hr) as (E & Hr' & HF).
      assert (X : fst (set_do T2 eqb ord o t) = RUnit /\ SInv eqb R (snd (set_do T2 eqb ord o t)) l).
      { destruct o; try discriminate Em; cbn [set_do]; unfold observe.
        - destruct (ss_union_ok T2 ltb eqb fref dflt R ld HK ord HO its t l HI) as (n & l' & -> & _). split; [reflexivity|exact HI].
        - destruct (ss_difference_ok T2 ltb eqb fref dflt R ld HK ord HO its t l HI) as (n & l' & -> & _). split; [reflexivity|exact HI].
        - destruct (ss_intersection_ok T2 ltb eqb fref dflt R ld HK ord HO its t l HI) as (n & l' & -> & _). split; [reflexivity|exact HI].
        - destruct (ss_symmetric_difference_ok T2 ltb eqb fref dflt R ld HK ord HO it t l HI) as (n & l' & -> & _). split; [reflexivity|exact HI].
        - destruct (ss_copy_ok T2 ltb eqb fref dflt R ld HK ord HO t l HI) as (n & l' & -> & _). split; [reflexivity|exact HI].
        - destruct (ss_reduce_ok T2 ltb eqb fref dflt R ld HK ord HO t l HI) as (n & l' & s1 & -> & H & _). split; [reflexivity|exact H]. }
      destruct X as [X1 X2]. rewrite X1 in E. destruct (set_do T1 eqb ord o s) as [r s']. cbn [fst snd] in *. subst r. exists RUnit, s', l.
      split; [reflexivity|]. split; [unfold set_eff; rewrite Em; split; reflexivity|]. split; [eexists; split; [exact Hr'|exact X2]|]. intros _. exact HF.
    - assert (Ev : forall S (T : listcls S V K) x, set_do T eqb ord o x = ss_step T eqb ord o x) by (intros; destruct o; try discriminate Em; reflexivity).
      destruct (ss_changes T1 T2 Q HS eqb ord o Em s t Hr) as (E & Hr' & _).
      destruct (ss_step_ok T2 ltb eqb fref dflt R ld HK ord HO o t l HI Ho) as (r & t' & l' & Et & He & HI' & _). rewrite (Ev _ T2), Et in *. cbn [fst snd] in *.
      destruct (set_do T1 eqb ord o s) as [r1 s'] eqn:Ed. cbn [fst snd] in *. subst r1. exists r, s', l'. split; [reflexivity|].
      split; [unfold set_eff; rewrite Em; split; [exact He|]; split; [eapply sinv_sorted; eassumption|eapply sinv_distinct; eassumption]|].
      split; [exists t'; split; assumption|]. intros Hm. destruct (sreads o) eqn:Er.
      + destruct (ss_reads T1 T2 Q HS eqb ord o Er s t Hr) as (_ & _ & H). rewrite Ed in H. exact H.
      + assert (Hmem : forall v, set_mem eqb v (s_set s) = existsb (fun x => eqb x v) l).
        { intros v. assert (E1 : s_set s = s_set t) by apply Hr. rewrite E1. destruct HI as (_ & _ & HP). unfold set_mem.
          apply Bool.eq_iff_eq_true. rewrite !existsb_exists. split; intros (y & Hy & Hv); exists y; (split; [|exact Hv]); [|symmetry in HP]; eapply Permutation_in; eassumption. }
        destruct o; try discriminate Em; try discriminate Er; try discriminate Hm; cbn [set_moves] in Hm; cbn [set_do ss_step] in Ed.
        * apply Bool.negb_false_iff in Hm. unfold observe, ss_add, members, bind, get, ret in Ed. rewrite Hmem, Hm in Ed. injection Ed as _ <-. apply still_refl.
        * unfold observe, ss_discard, members, bind, get, ret in Ed. rewrite Hmem, Hm in Ed. injection Ed as _ <-. apply still_refl.
        * unfold observe, ss_remove, set_remove, members, bind, get, ret in Ed. rewrite Hmem, Hm in Ed. injection Ed as _ <-. apply still_refl.
        * destruct f; discriminate.
  Qed.
  Lemma set_new_ok tick it s0 : ss_new T1 eqb ord tick it = Ok s0 -> exists l, SetInv s0 l /\ sorted ltb l /\ distinct eqb l /\
    forall x, member eqb x l <-> exists a, it = Some a /\ member eqb x (items a).
  Proof.
    intros E. pose proof (KeepSetFacts.new_rel T1 T2 Q HS eqb ord tick it) as H. destruct (ss_new_ok T2 ltb eqb fref dflt R ld HK ord HO tick it) as (t & l & Et & HI & (Hu & _) & _).
    rewrite E, Et in H. exists l. split; [exists t; auto|]. split; [eapply sinv_sorted; eassumption|]. split; [eapply sinv_distinct; eassumption|].
    intros x. rewrite Hu. split.
    - intros [Hx|(a & Hx & Ha)]; [destruct Hx as (? & [] & _)|]. destruct it as [b|]; [|destruct Hx]. destruct Hx as [<-|[]]. eauto.
    - intros (a & -> & Ha). right. exists a. cbn. auto.
  Qed.
  Lemma set_run_ok ops s0 l0 : SetInv s0 l0 -> Forall (xop_ok sop_ok) ops -> exists r,
    xr_run fref (set_eff ltb eqb fref) (fun l => l) (set_moves eqb) ops (l0, []) (fst (set_run T1 eqb ord ops (s0, []))) r.
  Proof.
    intros HI Ho. destruct (xrun_ok T1 (set_do T1 eqb ord) (@s_list S1 V) (fun l s => mksset (s_set s) l (s_tick s)) fref (set_eff ltb eqb fref) (fun l => l) (set_moves eqb)
      sop_ok SetInv) with (ops := ops) (s := (s0, @nil iterator)) (r := (l0, @nil (xrit V))) as (r & Hr & _).
    - reflexivity.
    - apply set_do_ok.
    - intros m x d (t & (H1 & H2 & Hr) & HI1 & HI2) Hm.
      destruct (made T1 T2 Q ltb eqb fref dflt R ld HM HK m (s_list x) (s_list t) d Hr HI1 Hm) as (s' & t' & H3 & H4 & H5 & H6).
      exists s'. split; [|split; [exact H5|exact H6]]. exists (mksset (s_set t) t' (s_tick t)). split; [split; [exact H1|split; [exact H2|exact H3]]|]. split; assumption.
    - split; [exact HI|constructor].
    - exact Ho.
    - exists r. exact Hr.
  Qed.
End Set_.

Lemma c93_set_iterators : forall S V K (T : ilist S V K) ltb eqb fref dflt ord tick it ops s0,
  keep_class T ltb eqb fref dflt -> any_order ord -> Forall (xop_ok sop_ok) ops -> ss_new T eqb ord tick it = Ok s0 ->
  exists l0 r, sorted ltb l0 /\ distinct eqb l0 /\ (forall x, member eqb x l0 <-> exists a, it = Some a /\ member eqb x (items a)) /\
    xr_run fref (set_eff ltb eqb fref) (fun l => l) (set_moves eqb) ops (l0, []) (fst (set_run T eqb ord ops (s0, []))) r.
Proof.
  intros S V K T ltb eqb fref dflt ord tick it ops s0 HT HO Ho E. destruct (keep_class_sim T ltb eqb fref dflt HT) as (_ & S2 & T2 & Q & HC & HM). cls HC HK.
  destruct (set_new_ok T T2 Q ltb eqb fref dflt R ld HM HK ord HO tick it s0 E) as (l0 & HI & H1 & H2 & H3).
  destruct (set_run_ok T T2 Q ltb eqb fref dflt R ld HM HK ord HO ops s0 l0 HI Ho) as (r & Hr). exists l0, r. auto.
Qed.

(** ** Updating a SortedSet with what it holds *)
Definition nk (n : nat) : ilist (heap nat * hsl nat) nat nat := iplain (total2 Nat.ltb) (total2 Nat.eqb) n.
Lemma nk_class n : 1 <= n -> keep_class (nk n) Nat.ltb Nat.eqb (fwd_plain Nat.ltb Nat.eqb) n.
Proof. intros H. apply kclass_plain; [apply nat_total|exact H]. Qed.
Definition as_is (n : nat) (l : list nat) : list nat := l.
Lemma as_is_order : any_order as_is.
Proof. intros n l. apply Permutation_refl. Qed.
Notation dn := (sset (heap nat * hsl nat) nat).
Definition nk_new (n : nat) (l : list nat) : dn :=
  match ss_new (nk n) Nat.eqb as_is 0 (Some (AIter l)) with Ok s => s | Err _ => mksset [] ([], mkhsl [] [] [] 0 0 0) 0 end.
Definition double_pre : list (xop (sop nat nat) nat nat) := [XDo (SAdd 2); XDo (SAdd 3)].
Definition double_ops : list (xop (sop nat nat) nat nat) :=
  [XMake MIter; XNext 0; XNext 0; XNext 0; XDo (SUpdate [AIter [1; 2]]); XNext 0; XNext 0].
Definition miss_pre : list (xop (sop nat nat) nat nat) := [XDo (SDiscard 2)].
Definition miss_ops : list (xop (sop nat nat) nat nat) :=
  [XMake MIter; XNext 0; XDo (SUpdate [AIter [0; 1]]); XNext 0; XNext 0; XNext 0].
Definition fall_pre : list (xop (sop nat nat) nat nat) := map (fun v => XDo (SDiscard v)) [2; 5; 8; 11; 14; 17].
Definition fall_ops : list (xop (sop nat nat) nat nat) :=
  [XMake (MFwd (FISlice None None true)); XDo (SUpdate [AIter [0; 1; 3; 4]]); XNext 0; XNext 0; XNext 0].

Ltac held := repeat (constructor; [cbn; try exact I|]); [|constructor]; intros x (a & [<-|[]] & y & Hy & E); exists y; split; [cbn in Hy |- *; tauto|exact E].

Lemma c94_repeats : ~ (forall S V K (T : ilist S V K) ltb eqb fref dflt ord tick it pre ops s0 l j,
  keep_class T ltb eqb fref dflt -> any_order ord -> Forall (xop_ok sop_ok) (pre ++ ops) -> ss_new T eqb ord tick it = Ok s0 -> no_iterators pre ->
  fst (l_iter T (s_list (fst (snd (set_run T eqb ord pre (s0, [])))))) = Ok l -> Forall (adds_nothing eqb l) ops ->
  distinct eqb (values_yielded j ops (skipn (length pre) (fst (set_run T eqb ord (pre ++ ops) (s0, [])))))).
Proof.
  intros H. specialize (H _ _ _ (nk 2) Nat.ltb Nat.eqb _ 2 as_is 0 (Some (AIter [0; 1])) double_pre double_ops (nk_new 2 [0; 1]) [0; 1; 2; 3] 0 (nk_class 2 ltac:(lia)) as_is_order
    ltac:(repeat constructor) ltac:(vm_compute; reflexivity) ltac:(repeat constructor) ltac:(vm_compute; reflexivity) ltac:(held)).
  replace (values_yielded _ _ _) with [0; 1; 2; 3; 2] in H by (vm_compute; reflexivity).
  destruct H as (_ & _ & H & _). specialize (H 2 ltac:(right; left; reflexivity)). discriminate H.
Qed.
Lemma c94_skips : ~ (forall S V K (T : ilist S V K) ltb eqb fref dflt ord tick it pre ops s0 l j i x,
  keep_class T ltb eqb fref dflt -> any_order ord -> Forall (xop_ok sop_ok) (pre ++ ops) -> ss_new T eqb ord tick it = Ok s0 -> no_iterators pre ->
  fst (l_iter T (s_list (fst (snd (set_run T eqb ord pre (s0, [])))))) = Ok l -> Forall (adds_nothing eqb l) ops ->
  first_made MIter j ops -> member eqb x l -> nth_error (pre ++ ops) i = Some (XNext j) -> nth_error (fst (set_run T eqb ord (pre ++ ops) (s0, []))) i = Some XStop ->
  member eqb x (values_yielded j ops (skipn (length pre) (fst (set_run T eqb ord (pre ++ ops) (s0, [])))))).
Proof.
  intros H. specialize (H _ _ _ (nk 3) Nat.ltb Nat.eqb _ 3 as_is 0 (Some (AIter [0; 1; 2; 3; 4])) miss_pre miss_ops (nk_new 3 [0; 1; 2; 3; 4]) [0; 1; 3; 4] 0 6 3 (nk_class 3 ltac:(lia)) as_is_order
    ltac:(repeat constructor) ltac:(vm_compute; reflexivity) ltac:(repeat constructor) ltac:(vm_compute; reflexivity) ltac:(held) ltac:(split; [reflexivity|eexists [], _; split; [constructor|reflexivity]])
    ltac:(exists 3; split; [cbn; tauto|reflexivity]) ltac:(reflexivity) ltac:(vm_compute; reflexivity)).
  replace (values_yielded _ _ _) with [0; 1; 4] in H by (vm_compute; reflexivity).
  destruct H as (y & [<-|[<-|[<-|[]]]] & H); discriminate H.
Qed.
Lemma c94_index_error : ~ (forall S V K (T : ilist S V K) ltb eqb fref dflt ord tick it pre ops s0 l,
  keep_class T ltb eqb fref dflt -> any_order ord -> Forall (xop_ok sop_ok) (pre ++ ops) -> ss_new T eqb ord tick it = Ok s0 -> no_iterators pre ->
  fst (l_iter T (s_list (fst (snd (set_run T eqb ord pre (s0, [])))))) = Ok l -> Forall (adds_nothing eqb l) ops ->
  ~ In (XExn IndexError) (skipn (length pre) (fst (set_run T eqb ord (pre ++ ops) (s0, []))))).
Proof.
  intros H. specialize (H _ _ _ (nk 3) Nat.ltb Nat.eqb _ 3 as_is 0 (Some (AIter (seq 0 18))) fall_pre fall_ops (nk_new 3 (seq 0 18)) [0; 1; 3; 4; 6; 7; 9; 10; 12; 13; 15; 16]  (nk_class 3 ltac:(lia)) as_is_order
    ltac:(repeat constructor) ltac:(vm_compute; reflexivity) ltac:(repeat constructor) ltac:(vm_compute; reflexivity) ltac:(held)).
  apply H. vm_compute. auto 20.
Qed.

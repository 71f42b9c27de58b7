(** * Statements about the set operators between objects of different classes *)
From Coq Require Import Permutation.
From Verif Require Import PyBase Model Spec SpecFacts History CoreFacts ListSim HistFacts Reach Concrete ListProps KeyProps ListClass ClassSpec ClassFacts ModelSet SetSpec HashFacts SetFacts SetProps
  ModelDict DictSpec MapFacts DictFacts DictProps ModelView ViewSpec ViewProps ModelHeap ModelMixed MixedProps ModelCompare CompareSpec ConcreteCompare CompareProps ModelSetOps SetOpsSpec.
Local Unset Implicit Arguments.

Definition iterable (k : kind) : bool := match k with KOther => false | _ => true end.
Definition any_set (k : kind) : bool := match k with KPySet | KFrozen => true | _ => false end.

Lemma in_any_one {V} (eqb : V -> V -> bool) x a : in_any eqb x [a] <-> member eqb x (items a).
Proof. unfold in_any. split; [intros (b & [<-|[]] & H); exact H|intros H; exists a; cbn; auto]. Qed.

Section Method.
  Context {S V K KN : Type}.
  Variable T : listcls S V K.
  Variable N : listcls (core V V) V KN.
  Variable key : V -> K.
  Variables kltb keqb : K -> K -> bool.
  Variables vltb eqb ltb : V -> V -> bool.
  Variable fref : fwd V K -> list V -> out V * list V.
  Variable dflt ndflt : nat.
  Variable ord : nat -> list V -> list V.
  Hypothesis HC : list_class T ltb eqb fref dflt.
  Hypothesis HT : TotalOrder vltb eqb.
  Hypothesis Hn : 1 <= ndflt.
  Hypothesis HO : any_order ord.
  Hypothesis HN : N = plain (K:=KN) (total2 vltb) (total2 eqb) ndflt.
  Notation operand := (ModelCompare.operand (S:=S) (V:=V) (K:=K)).
  Notation den := (denotes T key kltb keqb vltb eqb dflt ord).

  Lemma sight_iter x k l : den x k l -> e_iter (sight T eqb x) = if iterable k then Some (Ok l) else None.
  Proof.
    intros Hx. pose proof (den_seq T key kltb keqb vltb eqb ltb fref dflt ord HC x k l Hx) as E.
    destruct x; cbn [sight e_iter]; cbn [denotes] in Hx;
      try (destruct Hx as (-> & -> & _); reflexivity); first [subst k|destruct Hx as [-> _]]; exact E.
  Qed.
  Lemma sight_any x k l : den x k l -> e_any (sight T eqb x) = any_set k.
  Proof. intros Hx. destruct x; cbn [denotes] in Hx; first [subst k|destruct Hx as [-> _]]; reflexivity. Qed.

  Lemma set_method_ok op o m s l : e_iter o = Some (Ok m) -> ss_reach T eqb ord s -> ss_shows T s l ->
    exists n, set_method T eqb ord op o s = Ok n /\ is_sset eqb ord T ltb n (fun v => op_means op (member eqb v l) (member eqb v m)).
  Proof.
    intros Eo HR HS. unfold set_method. rewrite Eo. cbn [rbind]. set (a := if e_any o then ASet m else AIter m).
    assert (Ea : items a = m) by (unfold a; destruct (e_any o); reflexivity).
    destruct (c36_operators S V K T ltb eqb fref dflt ord s l [a] a HC HO HR HS) as (HU & HI & HD & HX).
    destruct op.
    - destruct HI as (n & l' & -> & H1 & H2 & H3 & H4 & H5). exists n. split; [reflexivity|]. split; [exact H1|].
      exists l'. repeat (split; [assumption|]). intros v. rewrite H5. cbn [op_means]. rewrite <- Ea.
      split; intros [A B]; (split; [exact A|]); [apply B; left; reflexivity|intros b [<-|[]]; exact B].
    - destruct HU as (n & l' & -> & H1 & H2 & H3 & H4 & H5). exists n. split; [reflexivity|]. split; [exact H1|].
      exists l'. repeat (split; [assumption|]). intros v. rewrite H5, in_any_one, Ea. reflexivity.
    - destruct HD as (n & l' & -> & H1 & H2 & H3 & H4 & H5). exists n. split; [reflexivity|]. split; [exact H1|].
      exists l'. repeat (split; [assumption|]). intros v. rewrite H5, in_any_one, Ea. reflexivity.
    - destruct HX as (n & l' & -> & H1 & H2 & H3 & H4 & H5). exists n. split; [reflexivity|]. split; [exact H1|].
      exists l'. repeat (split; [assumption|]). intros v. rewrite H5, Ea. cbn [op_means]. tauto.
  Qed.
  Lemma is_sset_intro s l P : ss_reach T eqb ord s -> ss_shows T s l -> (forall v, member eqb v l <-> P v) -> is_sset eqb ord T ltb s P.
  Proof.
    intros HR HS H. split; [exact HR|]. exists l. split; [exact HS|]. cls HC HK.
    pose proof (ss_shows_ok T ltb eqb fref dflt R ld HK ord HO s l HR HS) as HI.
    split; [eapply sinv_sorted; eauto|]. split; [eapply sinv_distinct; eauto|exact H].
  Qed.
  Lemma set_update_ok op o m s l : e_iter o = Some (Ok m) -> ss_reach T eqb ord s -> ss_shows T s l ->
    exists n, set_update_method T eqb ord op o s = Ok n /\ is_sset eqb ord T ltb n (fun v => op_means op (member eqb v l) (member eqb v m)).
  Proof.
    intros Eo HR HS. unfold set_update_method. rewrite Eo. cbn [rbind]. set (a := if e_any o then ASet m else AIter m).
    assert (Ea : items a = m) by (unfold a; destruct (e_any o); reflexivity).
    destruct (c37_in_place S V K T ltb eqb fref dflt ord s l [a] a HC HO HR HS) as (HU & HI & HD & HX).
    destruct op.
    - destruct HI as (n & l' & -> & H1 & H2 & H3). exists n. split; [reflexivity|]. apply (is_sset_intro n l' _ H1 H2).
      intros v. rewrite H3. cbn [op_means]. rewrite <- Ea.
      split; intros [A B]; (split; [exact A|]); [apply B; left; reflexivity|intros b [<-|[]]; exact B].
    - destruct HU as (n & l' & -> & H1 & H2 & H3). exists n. split; [reflexivity|]. apply (is_sset_intro n l' _ H1 H2).
      intros v. rewrite H3, in_any_one, Ea. reflexivity.
    - destruct HD as (n & l' & -> & H1 & H2 & H3). exists n. split; [reflexivity|]. apply (is_sset_intro n l' _ H1 H2).
      intros v. rewrite H3, in_any_one, Ea. reflexivity.
    - destruct HX as (n & l' & -> & H1 & H2 & H3). exists n. split; [reflexivity|]. apply (is_sset_intro n l' _ H1 H2).
      intros v. rewrite H3, Ea. cbn [op_means]. tauto.
  Qed.
  Lemma mixin_keys_ok op t o m d l : e_iter o = Some (Ok m) -> sd_reach T eqb eqb d -> sd_shows T eqb d l ->
    exists n, mixin_method eqb ord N (keys_view T eqb) op t o d = Some (Ok n) /\
      is_sset eqb ord N vltb n (fun v => vop_means op (member eqb v (map fst l)) (member eqb v m)).
  Proof.
    intros Eo HR HS. unfold mixin_method. rewrite Eo. cbn [rbind]. set (a := if e_set o then ASet m else AIter m).
    assert (Ea : items a = m) by (unfold a; destruct (e_set o); reflexivity).
    destruct (c67_operators S V V K KN T ltb eqb eqb fref dflt d l vltb ndflt ord op t a HC HR HS HT Hn HO) as (r & lr & H & H1 & H2 & H3 & H4 & H5 & _).
    cbv zeta in *. rewrite <- HN in *. rewrite H. exists r. split; [reflexivity|]. split; [exact H1|]. exists lr. repeat (split; [assumption|]).
    intros v. rewrite H5, Ea. reflexivity.
  Qed.
  Lemma mixin_rsub_ok t o m s l : e_iter o = Some (Ok m) -> ss_reach T eqb ord s -> ss_shows T s l ->
    exists n, mixin_method eqb ord N (set_view T eqb) VRSub t o s = Some (Ok n) /\
      is_sset eqb ord N vltb n (fun v => op_means OpSub (member eqb v m) (member eqb v l)).
  Proof.
    intros Eo HR HS. unfold mixin_method. rewrite Eo. cbn [rbind mix_op]. set (a := if e_set o then ASet m else AIter m).
    assert (Ea : items a = m) by (unfold a; destruct (e_set o); reflexivity).
    destruct (c71_rsub S V K KN T ltb eqb fref dflt ord s l vltb ndflt t a HC HO HR HS HT Hn) as (r & lr & H & H1 & H2 & H3 & H4 & H5 & _).
    cbv zeta in *. rewrite <- HN in *. rewrite H. exists r. split; [reflexivity|]. split; [exact H1|]. exists lr. repeat (split; [assumption|]).
    intros v. rewrite H5, Ea. reflexivity.
  Qed.
End Method.

Section Builtin.
  Context {V : Type}.
  Variable eqb : V -> V -> bool.
  Hypothesis HE : Equiv eqb.
  Lemma union_members s l : distinct eqb s -> is_members eqb (set_union eqb s l) (fun v => member eqb v s \/ member eqb v l).
  Proof. intros Hs. destruct (set_union_spec eqb HE l s Hs) as (H1 & H2 & _). split; [exact H1|exact H2]. Qed.
  Lemma diff_members s l : distinct eqb s -> is_members eqb (set_diff eqb s l) (fun v => member eqb v s /\ ~ member eqb v l).
  Proof.
    intros Hs. split; [apply set_diff_distinct; assumption|]. intros v. split.
    - intros (y & Hy & Ey). apply (set_diff_In eqb HE) in Hy as [Hy Hl]. split; [exists y; auto|]. intros H. apply Hl, (mem_eqb eqb HE _ _ _ Ey), H.
    - intros [(y & Hy & Ey) Hl]. exists y. split; [|exact Ey]. apply (set_diff_In eqb HE). split; [exact Hy|]. intros H. apply Hl, (mem_eqb eqb HE _ _ _ Ey), H.
  Qed.
  Lemma py_method_ok op l m : distinct eqb l -> is_members eqb (py_method eqb op l m) (fun v => op_means op (member eqb v l) (member eqb v m)).
  Proof.
    intros Hl. destruct op; cbn [py_method op_means].
    - destruct (set_inter_spec eqb HE l (ASet m)) as (H1 & H2 & _). split; assumption.
    - apply union_members, Hl.
    - apply diff_members, Hl.
    - destruct (set_sym_new_spec eqb HE l m Hl) as (H1 & H2 & _). split; [exact H1|]. intros v. rewrite (H2 v). fold (member eqb v l) (member eqb v m). tauto.
  Qed.
  Lemma py_keys_ok op l m : is_members eqb (py_keys eqb op l m) (fun v => op_means op (member eqb v l) (member eqb v m)).
  Proof.
    destruct (set_of_spec eqb HE l) as (D & M & _).
    assert (X : is_members eqb (py_keys eqb op l m) (fun v => op_means op (member eqb v (set_of eqb l)) (member eqb v m))).
    { destruct op; cbn [py_keys op_means].
      - destruct (set_inter_spec eqb HE (set_of eqb l) (AIter m)) as (H1 & H2 & _). split; assumption.
      - apply union_members, D.
      - apply diff_members, D.
      - destruct (set_sym_spec eqb HE (set_of eqb l) m D) as (H1 & H2 & _). split; [exact H1|]. intros v. rewrite (H2 v).
        fold (member eqb v (set_of eqb l)) (member eqb v m). tauto. }
    destruct X as [X1 X2]. split; [exact X1|]. intros v. rewrite X2. pose proof (M v) as E. fold (member eqb v (set_of eqb l)) (member eqb v l) in E.
    destruct op; cbn [op_means]; tauto.
  Qed.
End Builtin.

Section Operators.
  Context {S S' V K K' KN : Type}.
  Variable T : listcls S V K.
  Variable T' : listcls S' V K'.
  Variable key : V -> K.
  Variable key' : V -> K'.
  Variables kltb keqb : K -> K -> bool.
  Variables kltb' keqb' : K' -> K' -> bool.
  Variables vltb eqb ltb ltb' : V -> V -> bool.
  Variable fref : fwd V K -> list V -> out V * list V.
  Variable fref' : fwd V K' -> list V -> out V * list V.
  Variables dflt dflt' ndflt : nat.
  Variable ord : nat -> list V -> list V.
  Hypothesis HC : list_class T ltb eqb fref dflt.
  Hypothesis HC' : list_class T' ltb' eqb fref' dflt'.
  Hypothesis HT : TotalOrder vltb eqb.
  Hypothesis Hn : 1 <= ndflt.
  Hypothesis HO : any_order ord.
  Notation N := (plain (K:=KN) (total2 vltb) (total2 eqb) ndflt).
  Notation den := (denotes T key kltb keqb vltb eqb dflt ord).
  Notation den' := (denotes T' key' kltb' keqb' vltb eqb dflt' ord).
  Notation good c r P := (is_outcome T T' N ltb ltb' vltb eqb ord c r P).
  Notation HE := (to_equiv _ _ HT).

  Lemma forward_ok op t x y j k l m : den x j l -> den' y k m ->
    match forward T eqb ord N op t x (sight T' eqb y) with
    | Some r =>
        match result_kind op j k with
        | None => r = Err TypeError
        | Some c => exists n, r = Ok n /\ good c (from_left (S':=S') n) (fun v => op_means op (member eqb v l) (member eqb v m))
        end
    | None =>
        match j with
        | KSortedSet | KDictKeys => False
        | KKeysView => k = KOther
        | KPySet | KFrozen => any_set k = false
        | _ => True
        end
    end.
  Proof.
    intros Hx Hy. pose proof (sight_iter T' key' kltb' keqb' vltb eqb ltb' fref' dflt' ord HC' y k m Hy) as EI.
    pose proof (sight_any T' key' kltb' keqb' vltb eqb dflt' ord y k m Hy) as EA.
    destruct x; cbn [forward]; cbn [denotes] in Hx.
    - destruct Hx as [-> _]. exact I.
    - destruct Hx as [-> _]. exact I.
    - destruct Hx as (-> & -> & HD). rewrite EA, EI. destruct (any_set k) eqn:Ek; [|reflexivity].
      destruct k; try discriminate; cbn [iterable option_map rmap rbind result_kind]; eexists; (split; [reflexivity|]); apply (py_method_ok eqb HE op l m HD).
    - destruct Hx as (-> & -> & HD). rewrite EA, EI. destruct (any_set k) eqn:Ek; [|reflexivity].
      destruct k; try discriminate; cbn [iterable option_map rmap rbind result_kind]; eexists; (split; [reflexivity|]); apply (py_method_ok eqb HE op l m HD).
    - destruct Hx as (-> & -> & HD). rewrite EI. destruct k; cbn [iterable result_kind]; try reflexivity;
        eexists; (split; [reflexivity|]); apply (py_keys_ok eqb HE op l m).
    - destruct Hx as [-> _]. exact I.
    - destruct Hx as [-> _]. exact I.
    - destruct Hx as (-> & HR & HS). destruct (iterable k) eqn:Ek.
      + destruct (set_method_ok T key kltb keqb eqb ltb fref dflt ord HC HO op _ m s l EI HR HS) as (n & -> & Hg).
        destruct k; try discriminate; cbn [result_kind rmap rbind]; eexists; (split; [reflexivity|]); exact Hg.
      + destruct k; try discriminate. unfold set_method. rewrite EI. reflexivity.
    - destruct Hx as (-> & HR & ml & HS & ->). destruct (iterable k) eqn:Ek.
      + destruct (mixin_keys_ok T N vltb eqb ltb fref dflt ndflt ord HC HT Hn HO Logic.eq_refl (vop_of op) t _ m d ml EI HR HS) as (n & -> & Hg).
        cbn [option_map rmap rbind].
        destruct k; try discriminate; cbn [result_kind]; eexists; (split; [reflexivity|]); destruct op; exact Hg.
      + destruct k; try discriminate. unfold mixin_method. rewrite EI. reflexivity.
    - destruct Hx as [-> _]. exact I.
    - subst j. exact I.
  Qed.
  Lemma vop_back_means op (P Q : Prop) : vop_means (vop_back op) Q P <-> op_means op P Q.
  Proof. destruct op; cbn; tauto. Qed.
  Lemma is_sset_iff {S0 K0} (C : listcls S0 V K0) lt s (P Q : V -> Prop) : (forall v, P v <-> Q v) -> is_sset eqb ord C lt s P -> is_sset eqb ord C lt s Q.
  Proof. intros H (H1 & l & H2 & H3 & H4 & H5). split; [exact H1|]. exists l. repeat (split; [assumption|]). intros v. rewrite H5. apply H. Qed.

  Lemma binop_ok op t x y j k l m : den x j l -> den' y k m ->
    match result_kind op j k with
    | None => binop T T' N eqb ord op t x y = Err TypeError
    | Some c => exists r, binop T T' N eqb ord op t x y = Ok r /\ good c r (fun v => op_means op (member eqb v l) (member eqb v m))
    end.
  Proof.
    intros Hx Hy. pose proof (forward_ok op t x y j k l m Hx Hy) as HF. unfold binop.
    destruct (forward T eqb ord N op t x (sight T' eqb y)) as [r|].
    { destruct (result_kind op j k) as [c|].
      - destruct HF as (n & -> & Hg). exists (from_left n). split; [reflexivity|exact Hg].
      - subst r. reflexivity. }
    pose proof (sight_iter T key kltb keqb vltb eqb ltb fref dflt ord HC x j l Hx) as EI.
    destruct y; cbn [backward]; cbn [denotes] in Hy.
    1-4,6-7: destruct Hy as [-> _]; destruct j; try contradiction; try discriminate; reflexivity.
    - destruct Hy as (-> & -> & HD). rewrite EI. destruct j; try contradiction; try discriminate; cbn [iterable result_kind rmap rbind]; try reflexivity;
        eexists; (split; [reflexivity|]); apply (py_keys_ok eqb HE op l m).
    - destruct Hy as (-> & HR & HS). destruct (iterable j) eqn:Ej.
      + assert (A : result_kind op j KSortedSet = Some (match op with OpSub => NoKey | _ => LikeRight end)) by (destruct j; try contradiction; try discriminate; reflexivity).
        rewrite A. destruct (set_method_ok T' key' kltb' keqb' eqb ltb' fref' dflt' ord HC' HO op _ l s m EI HR HS) as (n & E & Hg).
        destruct (mixin_rsub_ok T' N vltb eqb ltb' fref' dflt' ndflt ord HC' HT Hn HO Logic.eq_refl t _ l s m EI HR HS) as (n' & E' & Hg').
        rewrite E, E'. destruct op; cbn [option_map rmap rbind]; eexists; (split; [reflexivity|]); cbn [from_right is_outcome].
        3: exact Hg'.
        all: eapply is_sset_iff; [|exact Hg]; intros v; cbn [op_means]; tauto.
      + destruct j; try discriminate. cbn [result_kind]. unfold set_method, mixin_method. rewrite EI. destruct op; reflexivity.
    - destruct Hy as (-> & HR & ml & HS & ->). destruct (iterable j) eqn:Ej.
      + assert (A : result_kind op j KKeysView = Some NoKey) by (destruct j; try contradiction; try discriminate; reflexivity).
        rewrite A. destruct (mixin_keys_ok T' N vltb eqb ltb' fref' dflt' ndflt ord HC' HT Hn HO Logic.eq_refl (vop_back op) t _ l d ml EI HR HS) as (n & -> & Hg).
        cbn [option_map rmap rbind]. eexists. split; [reflexivity|]. cbn [from_right is_outcome]. eapply is_sset_iff; [|exact Hg]. intros v. apply vop_back_means.
      + destruct j; try discriminate. unfold mixin_method. rewrite EI. reflexivity.
    - destruct Hy as [-> _]; destruct j; try contradiction; try discriminate; reflexivity.
    - subst k. destruct j; try contradiction; try discriminate; reflexivity.
  Qed.
  Lemma augmented_ok op t x y j k l m : den x j l -> den' y k m ->
    match result_kind op j k with
    | None => augmented T T' N eqb ord op t x y = Err TypeError
    | Some c => exists r, augmented T T' N eqb ord op t x y = Ok r /\ good c r (fun v => op_means op (member eqb v l) (member eqb v m))
    end.
  Proof.
    intros Hx Hy. pose proof (binop_ok op t x y j k l m Hx Hy) as HB.
    pose proof (sight_iter T' key' kltb' keqb' vltb eqb ltb' fref' dflt' ord HC' y k m Hy) as EI.
    pose proof (sight_any T' key' kltb' keqb' vltb eqb dflt' ord y k m Hy) as EA.
    unfold augmented. destruct x; cbn [inplace]; try exact HB; cbn [denotes] in Hx.
    - destruct Hx as (-> & -> & HD). rewrite EA, EI. destruct (any_set k) eqn:Ek; [|exact HB].
      destruct k; try discriminate; cbn [iterable option_map rmap rbind result_kind]; eexists; (split; [reflexivity|]); apply (py_method_ok eqb HE op l m HD).
    - destruct Hx as (-> & HR & HS). destruct (iterable k) eqn:Ek.
      + destruct (set_update_ok T key kltb keqb eqb ltb fref dflt ord HC HO op _ m s l EI HR HS) as (n & -> & Hg).
        destruct k; try discriminate; cbn [result_kind rmap rbind]; eexists; (split; [reflexivity|]); exact Hg.
      + destruct k; try discriminate. unfold set_update_method. rewrite EI. reflexivity.
  Qed.
End Operators.

Lemma c98_operators : forall S S' V K K' KN (T : listcls S V K) (T' : listcls S' V K') (key : V -> K) (key' : V -> K') kltb keqb kltb' keqb' vltb eqb ltb ltb' fref fref' dflt dflt' ndflt ord
    op t x y j k l m,
  list_class T ltb eqb fref dflt -> list_class T' ltb' eqb fref' dflt' -> TotalOrder vltb eqb -> 1 <= ndflt -> any_order ord ->
  denotes T key kltb keqb vltb eqb dflt ord x j l -> denotes T' key' kltb' keqb' vltb eqb dflt' ord y k m ->
  let N := plain (K:=KN) (total2 vltb) (total2 eqb) ndflt in
  let r := binop T T' N eqb ord op t x y in
  match result_kind op j k with
  | None => r = Err TypeError
  | Some c => exists o, r = Ok o /\ is_outcome T T' N ltb ltb' vltb eqb ord c o (fun v => op_means op (member eqb v l) (member eqb v m))
  end.
Proof.
  intros S S' V K K' KN T T' key key' kltb keqb kltb' keqb' vltb eqb ltb ltb' fref fref' dflt dflt' ndflt ord op t x y j k l m HC HC' HT Hn HO Hx Hy N r.
  eapply binop_ok; eassumption.
Qed.
Lemma c98_in_place : forall S S' V K K' KN (T : listcls S V K) (T' : listcls S' V K') (key : V -> K) (key' : V -> K') kltb keqb kltb' keqb' vltb eqb ltb ltb' fref fref' dflt dflt' ndflt ord
    op t x y j k l m,
  list_class T ltb eqb fref dflt -> list_class T' ltb' eqb fref' dflt' -> TotalOrder vltb eqb -> 1 <= ndflt -> any_order ord ->
  denotes T key kltb keqb vltb eqb dflt ord x j l -> denotes T' key' kltb' keqb' vltb eqb dflt' ord y k m ->
  let N := plain (K:=KN) (total2 vltb) (total2 eqb) ndflt in
  let r := augmented T T' N eqb ord op t x y in
  match result_kind op j k with
  | None => r = Err TypeError
  | Some c => exists o, r = Ok o /\ is_outcome T T' N ltb ltb' vltb eqb ord c o (fun v => op_means op (member eqb v l) (member eqb v m))
  end.
Proof.
  intros S S' V K K' KN T T' key key' kltb keqb kltb' keqb' vltb eqb ltb ltb' fref fref' dflt dflt' ndflt ord op t x y j k l m HC HC' HT Hn HO Hx Hy N r.
  eapply augmented_ok; eassumption.
Qed.

(** ** Concrete operands: on the left ordered by the last digit, on the right naturally. *)
Definition dT : listcls (skl nat nat) nat nat := keyed (total2 Nat.eqb) (total2 Nat.ltb) (total2 Nat.eqb) (total1 last_digit) 2.
Lemma dT_class : list_class dT (by_key last_digit Nat.ltb) Nat.eqb (fwd_keyed last_digit Nat.ltb Nat.eqb) 2.
Proof. apply class_keyed; [apply nat_total|apply (to_equiv _ _ nat_total)|apply last_digit_compat|lia]. Qed.
Definition dset (l : list nat) : sset (skl nat nat) nat := snd (ss_run dT Nat.eqb back [SUpdate [AIter l]] (mksset [] (skl_init 2) 1)).
Lemma dset_reach l : ss_reach dT Nat.eqb back (dset l).
Proof. exists 0, None, (mksset [] (skl_init 2) 1), [SUpdate [AIter l]]. split; [vm_compute; reflexivity|]. split; [repeat constructor|reflexivity]. Qed.
Notation dden := (denotes dT last_digit Nat.ltb Nat.eqb Nat.ltb Nat.eqb 2 back).
Lemma dset_den l m : ss_shows dT (dset l) m -> dden (OSet (dset l)) KSortedSet m.
Proof. intros H. split; [reflexivity|]. split; [apply dset_reach|exact H]. Qed.
Lemma nset_den l m : ss_shows nT (nset l) m -> nden (OSet (nset l)) KSortedSet m.
Proof. intros H. split; [reflexivity|]. split; [apply nset_reach|exact H]. Qed.
(** The class of the result, and its values in order. *)
Definition shown_result {S S'} (T : listcls S nat nat) (T' : listcls S' nat nat) (r : res (result (S:=S) (S':=S') (V:=nat) (SN:=core nat nat))) : res (outcome * list nat) :=
  let! o := r in
  match o with
  | RLeft s => let! l := fst (ss_iter T s) in Ok (LikeLeft, l)
  | RRight s => let! l := fst (ss_iter T' s) in Ok (LikeRight, l)
  | RPlain s => let! l := fst (ss_iter nT s) in Ok (NoKey, l)
  | RPySet l => Ok (PySet, l)
  | RFrozen l => Ok (PyFrozen, l)
  end.
Definition dn (op : setop) x y := shown_result dT nT (binop dT nT nT Nat.eqb back op 0 x y).
Definition nd (op : setop) x y := shown_result nT dT (binop nT dT nT Nat.eqb back op 0 x y).
Definition dn_in (op : setop) x y := shown_result dT nT (augmented dT nT nT Nat.eqb back op 0 x y).

Lemma c99_sorted_set : ~ (forall S S' V K K' KN (T : listcls S V K) (T' : listcls S' V K') (key : V -> K) (key' : V -> K') kltb keqb kltb' keqb' vltb eqb ltb ltb' fref fref' dflt dflt' ndflt ord
    op t x y j k l m o,
  list_class T ltb eqb fref dflt -> list_class T' ltb' eqb fref' dflt' -> TotalOrder vltb eqb -> 1 <= ndflt -> any_order ord ->
  denotes T key kltb keqb vltb eqb dflt ord x j l -> denotes T' key' kltb' keqb' vltb eqb dflt' ord y k m ->
  let N := plain (K:=KN) (total2 vltb) (total2 eqb) ndflt in
  j = KSortedSet \/ k = KSortedSet -> binop T T' N eqb ord op t x y = Ok o ->
  match o with RLeft _ | RRight _ | RPlain _ => True | RPySet _ | RFrozen _ => False end).
Proof.
  intros H. destruct (binop dT nT nT Nat.eqb back OpOr 0 (ODictKeys [1]) (OSet (nset [2]))) as [o|e] eqn:E; [|vm_compute in E; discriminate].
  assert (X := H _ _ nat nat nat nat dT nT last_digit last_digit Nat.ltb Nat.eqb Nat.ltb Nat.eqb Nat.ltb Nat.eqb _ _ _ _ 2 2 2 back OpOr 0 (ODictKeys [1]) (OSet (nset [2]))
    KDictKeys KSortedSet [1] [2] o dT_class nT_class nat_total ltac:(lia) back_order
    ltac:(split; [reflexivity|]; split; [reflexivity|repeat constructor; intros ? []]) ltac:(apply nset_den; vm_compute; reflexivity) (or_intror Logic.eq_refl) E).
  vm_compute in E. injection E as <-. exact X.
Qed.
Lemma c99_key_function : ~ (forall S S' V K K' KN (T : listcls S V K) (T' : listcls S' V K') (key : V -> K) (key' : V -> K') kltb keqb kltb' keqb' vltb eqb ltb ltb' fref fref' dflt dflt' ndflt ord
    op t x y j l m o,
  list_class T ltb eqb fref dflt -> list_class T' ltb' eqb fref' dflt' -> TotalOrder vltb eqb -> 1 <= ndflt -> any_order ord ->
  denotes T key kltb keqb vltb eqb dflt ord x j l -> denotes T' key' kltb' keqb' vltb eqb dflt' ord y KSortedSet m -> set_like j = false ->
  let N := plain (K:=KN) (total2 vltb) (total2 eqb) ndflt in
  binop T T' N eqb ord op t x y = Ok o -> exists s, o = RRight s).
Proof.
  intros H. destruct (binop nT dT nT Nat.eqb back OpSub 0 (OPyList [12; 3]) (OSet (dset [5]))) as [o|e] eqn:E; [|vm_compute in E; discriminate].
  assert (X := H _ _ nat nat nat nat nT dT last_digit last_digit Nat.ltb Nat.eqb Nat.ltb Nat.eqb Nat.ltb Nat.eqb _ _ _ _ 2 2 2 back OpSub 0 (OPyList [12; 3]) (OSet (dset [5]))
    KPyList [12; 3] [5] o nT_class dT_class nat_total ltac:(lia) back_order
    ltac:(split; reflexivity) ltac:(apply dset_den; vm_compute; reflexivity) Logic.eq_refl E).
  vm_compute in E. injection E as <-. destruct X as (s & X). discriminate.
Qed.

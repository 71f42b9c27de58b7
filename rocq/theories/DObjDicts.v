(** * Proofs: programs with SortedDict objects over a total order (C85) *)
From Coq Require Import Permutation.
From Verif Require Import PyBase Model Spec History Reach ListClass ClassSpec ClassFacts ModelSet SetSpec SetProps ModelDict DictSpec MapFacts DictFacts
  ModelObj ObjSpec ObjFacts ObjProps ObjSets ModelDObj DObjSpec DObjFacts DObjProps.
Local Unset Implicit Arguments.

Lemma nth_map2 : forall X Y Z (f : X -> Z) (g : Y -> Z) l m i, map f l = map g m ->
  match nth_error m i with
  | Some y => exists x, nth_error l i = Some x /\ f x = g y
  | None => nth_error l i = None
  end.
Proof.
  intros X Y Z f g l. induction l as [|a l IH]; intros [|b m] i E; simpl in E; try discriminate.
  - destruct i; reflexivity.
  - inversion E. destruct i as [|i]; simpl; [exists a; auto|]. apply IH. auto.
Qed.

Section Dicts.
  Context {S A B K : Type}.
  Variable T : listcls S A K.
  Variables ltb eqb : A -> A -> bool.
  Variable veqb : B -> B -> bool.
  Variable fref : fwd A K -> list A -> out A * list A.
  Variable dflt : nat.
  Variable R : S -> list A -> Prop.
  Variable ld : S -> nat.
  Hypothesis HK : ClsOK T ltb eqb fref dflt R ld.
  Notation SD := (sdict S A B).
  Notation VW := (vworld SD A B).
  Notation MW := (vworld (list (A * B)) A B).
  Notation inv := (DInv (B:=B) ltb eqb R).
  Notation dk := (distinct_keys (B:=B) eqb).

  Definition MRel (v : VW) (m : MW) : Prop :=
    Forall inv (v_dicts v) /\ map (@d_items S A B) (v_dicts v) = v_dicts m /\
    v_mine v = v_mine m /\ Forall dk (v_mine m) /\ v_views v = v_views m.
  Definition MSim {X} (m : VW -> X * VW) (m' : MW -> X * MW) (P : X -> Prop) : Prop := forall v w, MRel v w ->
    exists a v' w', m v = (a, v') /\ m' w = (a, w') /\ MRel v' w' /\ P a.

  Lemma dk_nil : dk [].
  Proof. unfold distinct_keys, distinct. constructor. Qed.
  Lemma mrel_look : forall v w i, MRel v w ->
    match nth_error (v_dicts w) i with
    | Some d => exists s, nth_error (v_dicts v) i = Some s /\ d_items s = d /\ inv s
    | None => nth_error (v_dicts v) i = None
    end.
  Proof.
    intros v w i (F & E & _). rewrite <- (map_id (v_dicts w)) in E. pose proof (nth_map2 _ _ _ _ _ _ _ i E) as N.
    destruct (nth_error (v_dicts w) i) as [d|]; [|auto]. destruct N as (s & N1 & N2). exists s. split; [auto|split; [auto|]].
    rewrite Forall_forall in F. apply F. eapply nth_error_In; eauto.
  Qed.
  Lemma forall_put : forall X (P : X -> Prop) l i x, Forall P l -> P x -> Forall P (put l i x).
  Proof. intros X P l i x F H. rewrite Forall_forall in *. intros y C. apply put_in in C. destruct C as [->|C]; auto. Qed.
  Lemma mrel_put : forall v w i s, MRel v w -> inv s -> MRel (v_set i s v) (v_set i (d_items s) w).
  Proof.
    intros v w i s (F & E & M) I. split; [|split; [|exact M]]; simpl.
    - apply forall_put; auto.
    - rewrite map_put, E. reflexivity.
  Qed.
  Lemma mrel_add : forall v w s, MRel v w -> inv s -> MRel (v_add s v) (v_add (d_items s) w).
  Proof.
    intros v w s (F & E & M) I. split; [|split; [|exact M]]; simpl.
    - apply Forall_app. auto.
    - rewrite map_app, E. reflexivity.
  Qed.

  Lemma msim_then : forall X (m : M VW X) m' (k : X -> VW -> dout A B * VW) k' (P : X -> Prop),
    MSim m m' (fun r => match r with Ok x => P x | Err _ => True end) -> (forall a, P a -> MSim (k a) (k' a) (fun _ => True)) ->
    MSim (v_then m k) (v_then m' k') (fun _ => True).
  Proof.
    intros X m m' k k' P Hm Hk v w RR. destruct (Hm v w RR) as (a & v1 & w1 & E1 & E2 & R1 & HP).
    unfold v_then. rewrite E1, E2. destruct a as [a|e].
    - apply Hk; auto.
    - eexists _, _, _. eauto.
  Qed.
  Lemma msame : forall X (r : X) (P : X -> Prop), P r -> MSim (fun v => (r, v)) (fun w => (r, w)) P.
  Proof. intros X r P H v w RR. eexists _, _, _. split; [reflexivity|split; [reflexivity|auto]]. Qed.

  Notation it := (fun d : list (A * B) => (Ok (listing ltb d), d)).
  Lemma meval_sim : forall a, MSim (v_eval (sd_items T eqb) a) (v_eval it a) (fun r => match r with Ok _ => True | Err _ => True end).
  Proof.
    intros [ps|u|i] v w RR; cbn [v_eval].
    - eexists _, _, _. split; [reflexivity|split; [reflexivity|auto]].
    - pose proof RR as (_ & _ & EM & _). rewrite EM. destruct (nth_error (v_mine w) u);
        (eexists _, _, _; split; [reflexivity|split; [reflexivity|auto]]).
    - pose proof (mrel_look v w i RR) as LK. destruct (nth_error (v_dicts w) i) as [d|] eqn:E.
      + destruct LK as (s & E1 & <- & I). rewrite E1, (sd_items_ok T ltb eqb fref dflt R ld HK s I).
        eexists _, _, _. split; [reflexivity|split; [reflexivity|]]. split; [|exact Logic.I]. apply mrel_put; auto.
      + rewrite LK. eexists _, _, _. split; [reflexivity|split; [reflexivity|auto]].
  Qed.
  Lemma moperand_sim : forall a, MSim (v_operand eqb (@d_items S A B) a) (v_operand eqb (fun d => d) a)
    (fun r => match r with Ok d => dk d | Err _ => True end).
  Proof.
    intros [ps|u|i] v w RR; cbn [v_operand].
    - eexists _, _, _. split; [reflexivity|split; [reflexivity|split; [auto|]]].
      apply merge_dk. apply dk_nil.
    - pose proof RR as (_ & _ & EM & FM & _). rewrite EM. destruct (nth_error (v_mine w) u) eqn:E;
        (eexists _, _, _; split; [reflexivity|split; [reflexivity|split; [auto|]]]; auto).
      rewrite Forall_forall in FM. apply FM. eapply nth_error_In; eauto.
    - pose proof (mrel_look v w i RR) as LK. destruct (nth_error (v_dicts w) i) as [d|] eqn:E.
      + destruct LK as (s & E1 & <- & I). rewrite E1.
        eexists _, _, _. split; [reflexivity|split; [reflexivity|]]. split; [auto|]. apply I.
      + rewrite LK. eexists _, _, _. split; [reflexivity|split; [reflexivity|auto]].
  Qed.
  Lemma mdo_sim : forall i o, dop_ok eqb o ->
    MSim (v_do (sd_step T eqb veqb) i o) (v_do (ref_step ltb eqb veqb fref) i o) (fun _ => True).
  Proof.
    intros i o OK v w RR. unfold v_do. pose proof (mrel_look v w i RR) as LK.
    destruct (nth_error (v_dicts w) i) as [d|] eqn:E.
    - destruct LK as (s & E1 & <- & I). rewrite E1.
      destruct (sd_step_ok T ltb eqb veqb fref dflt R ld HK o s I OK) as (s' & E2 & E3 & I' & _).
      rewrite E2. destruct (ref_step ltb eqb veqb fref o (d_items s)) as [r d']. simpl in E3 |- *. subst d'.
      eexists _, _, _. split; [reflexivity|split; [reflexivity|]]. split; [|auto].
      destruct (dmakes o); [|apply mrel_put; auto]. destruct r; auto; apply mrel_add; auto.
    - rewrite LK. eexists _, _, _. split; [reflexivity|split; [reflexivity|auto]].
  Qed.
  Lemma mown_sim : forall u f, (forall d, dk d -> dk (f d)) -> MSim (v_own u f) (v_own u f) (fun _ => True).
  Proof.
    intros u f Hf v w RR. pose proof RR as (F & E & EM & FM & EV). unfold v_own. rewrite EM.
    destruct (nth_error (v_mine w) u) as [d|] eqn:EN.
    - eexists _, _, _. split; [reflexivity|split; [reflexivity|]]. split; [|auto].
      split; [auto|split; [auto|split; [reflexivity|split; [|auto]]]]. simpl. apply forall_put; auto. apply Hf.
      rewrite Forall_forall in FM. apply FM. eapply nth_error_In; eauto.
    - eexists _, _, _. split; [reflexivity|split; [reflexivity|auto]].
  Qed.

  Notation again := (fun d : SD => let! l := l_new T [] in Ok (mksd (d_items d) l)).
  Notation vstep := (v_step eqb (sd_step T eqb veqb) (sd_new T eqb) (sd_items T eqb) (@d_items S A B) again).
  Notation mstep := (v_step eqb (ref_step ltb eqb veqb fref) (fun a => Ok (merge eqb [] (pairs_of a))) it (fun d => d) (@Ok (list (A * B)))).
  Lemma mstep_sim : forall o, qop_ok eqb o -> MSim (vstep o) (mstep o) (fun _ => True).
  Proof.
    intros o OK. pose proof (k_equiv _ _ _ _ _ _ _ HK) as HE. destruct o; cbn [v_step].
    - apply msim_then with (P := fun _ => True); [exact (meval_sim a)|]. intros x _ v w RR. pose proof RR as (F & E & EM & FM & EV).
      eexists _, _, _. split; [reflexivity|split; [reflexivity|]]. split; [|auto].
      split; [auto|split; [auto|split; [|split; [|auto]]]]; simpl; [rewrite EM; auto|].
      apply Forall_app. split; [auto|]. constructor; [|constructor]. apply merge_dk. apply dk_nil.
    - apply mown_sim. intro. apply store_dk; auto.
    - apply mown_sim. intro. apply erase_dk; auto.
    - apply msim_then with (P := fun _ => True); [exact (meval_sim (QMine u))|]. intros x _. apply msame. auto.
    - apply msim_then with (P := fun _ => True); [exact (meval_sim a)|]. intros x _ v w RR.
      destruct (DictFacts.new_ok (B:=B) T ltb eqb fref dflt R ld HK x) as (s & E & Ed & I & _). rewrite E, <- Ed.
      eexists _, _, _. split; [reflexivity|split; [reflexivity|]]. split; [|auto]. apply mrel_add; auto.
    - destruct OK.
    - apply mdo_sim; auto.
    - apply msim_then with (P := fun _ => True); [exact (meval_sim a)|]. intros x _. apply mdo_sim. exact Logic.I.
    - apply msim_then with (P := fun _ => True); [exact (meval_sim a)|]. intros x _. apply mdo_sim. exact Logic.I.
    - apply msim_then with (P := fun _ => True); [exact (meval_sim a)|]. intros x _. apply mdo_sim. exact Logic.I.
    - eapply msim_then; [exact (moperand_sim a)|]. intros x Hx. apply mdo_sim. exact Hx.
    - intros v w RR. pose proof (mrel_look v w i RR) as LK. pose proof RR as (F & E & EM & FM & EV).
      destruct (nth_error (v_dicts w) i) as [d|].
      + destruct LK as (s & E1 & _). rewrite E1.
        eexists _, _, _. split; [reflexivity|split; [reflexivity|]]. split; [|auto].
        split; [auto|split; [auto|split; [auto|split; [auto|]]]]. simpl. rewrite EV. auto.
      + rewrite LK. eexists _, _, _. split; [reflexivity|split; [reflexivity|auto]].
    - intros v w RR. pose proof RR as (F & E & EM & FM & EV). rewrite EV.
      destruct (nth_error (v_views w) n) as [i|].
      + apply mdo_sim; auto.
      + eexists _, _, _. split; [reflexivity|split; [reflexivity|auto]].
  Qed.
  Lemma mrun_sim : forall ops, Forall (qop_ok eqb) ops ->
    MSim (v_run T eqb veqb ops) (m_run ltb eqb veqb fref ops) (fun _ => True).
  Proof.
    intros ops. induction ops as [|o t IH]; intros OK v w RR.
    - eexists _, _, _. split; [reflexivity|split; [reflexivity|auto]].
    - inversion OK; subst. unfold v_run, m_run in *. cbn [run].
      destruct (mstep_sim o H1 v w RR) as (r & v1 & w1 & E1 & E2 & R1 & _). rewrite E1, E2.
      destruct (IH H2 v1 w1 R1) as (rs & v2 & w2 & E3 & E4 & R2 & _). rewrite E3, E4.
      eexists _, _, _. split; [reflexivity|split; [reflexivity|auto]].
  Qed.
End Dicts.

Lemma c85_dicts : forall S A B K (T : listcls S A K) ltb eqb (veqb : B -> B -> bool) fref dflt ops outs w outs' m,
  list_class T ltb eqb fref dflt -> Forall (qop_ok eqb) ops ->
  q_run T eqb veqb ops q_init = (outs, w) -> m_run ltb eqb veqb fref ops v_init = (outs', m) ->
  outs = outs' /\ map (@q_items A B) (w_dicts w) = v_dicts m /\ w_mine w = v_mine m /\
  Forall2 (lists_as T eqb w) (w_dicts w) (map (listing ltb) (v_dicts m)).
Proof.
  intros S A B K T ltb eqb veqb fref dflt ops outs w outs' m HC OK E1 E2. pose proof (reads_class _ _ _ _ _ _ _ _ HC) as I. cls HC HK.
  destruct (qrun_sim T eqb veqb I ops q_init v_init qrel_init) as (a & w' & v & E3 & E4 & (RQ & RM & _)).
  destruct (mrun_sim T ltb eqb veqb fref dflt R ld HK ops OK v_init v_init) as (a' & v' & m' & E5 & E6 & (F & EI & EM & _) & _).
  { split; [constructor|]. split; [reflexivity|]. split; [reflexivity|]. split; [constructor|reflexivity]. }
  rewrite E1 in E3. rewrite E4 in E5. rewrite E2 in E6. inversion E3; inversion E5; inversion E6; subst. clear E3 E5 E6.
  split; [reflexivity|]. rewrite <- EI. split; [|split; [congruence|]].
  - pose proof (qr_len _ _ _ RQ) as L. pose proof (qr_obj _ _ _ RQ) as O. clear - L O. revert L O.
    generalize (w_dicts w') (v_dicts v'). induction l as [|o t IH]; intros [|s vs] L O; simpl in *; try discriminate; auto.
    destruct (O 0 o s Logic.eq_refl Logic.eq_refl) as (E1 & _). rewrite E1. f_equal. apply IH; [lia|]. intros i. apply (O (Datatypes.S i)).
  - pose proof (qr_len _ _ _ RQ) as L. pose proof (qr_obj _ _ _ RQ) as O. clear - L O F HK. revert L O F.
    generalize (w_dicts w') (v_dicts v'). induction l as [|o t IH]; intros [|s vs] L O F; simpl in *; try discriminate; constructor.
    + destruct (O 0 o s Logic.eq_refl Logic.eq_refl) as (E1 & E2 & _). inversion F; subst.
      exists (d_list s). split; [apply getn_nth; auto|]. rewrite E1. destruct s. eapply sd_shows_ok; eauto.
    + inversion F; subst. apply IH; [lia| |auto]. intros i. apply (O (Datatypes.S i)).
Qed.

Lemma c85_plain : forall (A B K : Type) (lt eq : A -> A -> res bool) (dflt : nat) (eqb : A -> A -> bool) (veqb : B -> B -> bool)
    (ops : list (qop A B K)) outs w outs' v,
  q_run (plain lt eq dflt) eqb veqb ops q_init = (outs, w) ->
  v_run (plain lt eq dflt) eqb veqb ops v_init = (outs', v) ->
  outs = outs' /\ dseen w = map (fun s => (d_items s, Ok (d_list s))) (v_dicts v) /\ w_mine w = v_mine v /\ dunshared w.
Proof. intros. eapply c85_values; eauto. apply reads_plain. Qed.

Lemma c85_keyed : forall (A B K : Type) (eq : A -> A -> res bool) (klt keq : K -> K -> res bool) (key : A -> res K) (dflt : nat)
    (eqb : A -> A -> bool) (veqb : B -> B -> bool) (ops : list (qop A B K)) outs w outs' v,
  q_run (keyed eq klt keq key dflt) eqb veqb ops q_init = (outs, w) ->
  v_run (keyed eq klt keq key dflt) eqb veqb ops v_init = (outs', v) ->
  outs = outs' /\ dseen w = map (fun s => (d_items s, Ok (d_list s))) (v_dicts v) /\ w_mine w = v_mine v /\ dunshared w.
Proof. intros. eapply c85_values; eauto. apply reads_keyed. Qed.

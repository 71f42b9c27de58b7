(** * Lemmas: [iloc] *)
From Verif Require Import PyBase Model History BaseFacts ListClass ModelSet ModelDict ModelDObj ModelIloc IlocSpec.
From Coq Require Import Lia.
Local Unset Implicit Arguments.

Section IlocFacts.
  Context {S A B K : Type}.
  Variable T : listcls S A K.
  Variable eqb : A -> A -> bool.
  Variable veqb : B -> B -> bool.
  Notation W := (qworld S A B).

  (** ** Views are only added *)
  Lemma views_with X i (m : list S * dobj A B -> X * (list S * dobj A B)) d w : w_views (snd (q_with i m d w)) = w_views w.
  Proof.
    unfold q_with. destruct (getn (w_dicts w) i); [|reflexivity]. destruct (m _) as (x & h & o).
    destruct (setn _ _ _); reflexivity.
  Qed.
  Lemma views_do i o (w : W) : w_views (snd (q_do T eqb veqb i o w)) = w_views w.
  Proof.
    unfold q_do. pose proof (views_with _ i (qd_do T eqb veqb o) (fun e => (OExn e, None)) w) as H.
    destruct (q_with i _ _ w) as ((r & new) & w'). cbn in *. destruct new; exact H.
  Qed.
  Lemma views_eval a (w : W) : w_views (snd (q_eval T eqb a w)) = w_views w.
  Proof. destruct a; cbn [q_eval]; [reflexivity..|apply views_with]. Qed.
  Lemma views_operand a (w : W) : w_views (snd (q_operand eqb a w)) = w_views w.
  Proof. destruct a; cbn [q_operand]; [reflexivity..|apply views_with]. Qed.
  Lemma views_then X (m : M W X) k (w : W) : (forall w : W, w_views (snd (m w)) = w_views w) -> (forall x (w : W), w_views (snd (k x w)) = w_views w) ->
    w_views (snd (q_then m k w)) = w_views w.
  Proof. intros Hm Hk. unfold q_then. specialize (Hm w). destruct (m w) as ([x|e] & w'); cbn in *; [rewrite Hk|]; exact Hm. Qed.
  Lemma views_own u f (w : W) : w_views (snd (q_own u f w)) = w_views w.
  Proof. unfold q_own. destruct (let! d := _ in _); reflexivity. Qed.

  Lemma views_step o (w : W) : exists more, w_views (snd (q_step T eqb veqb o w)) = w_views w ++ more.
  Proof.
    destruct o; match goal with |- context [QView _] => idtac | _ => exists []; rewrite app_nil_r end; cbn [q_step].
    - apply views_then; [apply views_eval|reflexivity].
    - apply views_own.
    - apply views_own.
    - apply views_then; [intros; apply views_eval|reflexivity].
    - apply views_then; [apply views_eval|]. intros x w'. destruct (q_construct _ _ _ _) as ([o|e] & h & ?); reflexivity.
    - apply views_then; [intros; apply views_with|]. intros _ w'. apply views_then; [apply views_eval|intros; apply views_do].
    - apply views_do.
    - apply views_then; [apply views_eval|intros; apply views_do].
    - apply views_then; [apply views_eval|intros; apply views_do].
    - apply views_then; [apply views_eval|intros; apply views_do].
    - apply views_then; [apply views_operand|intros; apply views_do].
    - destruct (getn (w_dicts w) i); [exists [i]; reflexivity|exists []; rewrite app_nil_r; reflexivity].
    - destruct (getn (w_views w) n); [apply views_do|reflexivity].
  Qed.

  Lemma getn_more X (l m : list X) i x : getn l i = Ok x -> getn (l ++ m) i = Ok x.
  Proof.
    unfold getn. destruct (nth_error l i) eqn:E; [|discriminate]. intros H.
    rewrite nth_error_app1; [rewrite E; exact H|]. apply nth_error_Some. congruence.
  Qed.

  (** ** Programs, from the right *)
  Lemma run_last Op St Out (step : Op -> St -> Out * St) ops o s :
    run step (ops ++ [o]) s =
    let (outs, s1) := run step ops s in let (r, s2) := step o s1 in (outs ++ [r], s2).
  Proof.
    revert s. induction ops as [|x t IH]; intros s; cbn.
    - destruct (step o s); reflexivity.
    - destruct (step x s) as (r & s1). rewrite IH. destruct (run step t s1) as (outs & s2).
      destruct (step o s2); reflexivity.
  Qed.
  Lemma run_len Op St Out (step : Op -> St -> Out * St) ops s : length (fst (run step ops s)) = length ops.
  Proof.
    revert s. induction ops as [|x t IH]; intros s; cbn; [reflexivity|]. destruct (step x s) as (r & s1).
    specialize (IH s1). destruct (run step t s1). cbn in *. lia.
  Qed.

  Definition attr (i : nat) (w : iworld S A B) : option nat :=
    option_map snd (find (fun a => fst a =? i) (i_attr w)).

  Record Inv (ops : list (iop A B K)) (outs : list (iout A B)) (w : iworld S A B) : Prop := mkInv {
    inv_len : length outs = length ops;
    inv_got : forall p i n b, got ops outs p i n b -> attr i w = Some n;
    inv_view : forall i n, attr i w = Some n -> getn (w_views (i_world w)) n = Ok i;
    inv_first : forall i n, attr i w = Some n -> exists q, got ops outs q i n true;
    inv_warned : forall p q i n m b, got ops outs p i n true -> got ops outs q i m b -> p <= q;
    inv_refused : forall p q i n b, refused ops outs p i -> got ops outs q i n b -> p < q }.

  Lemma nth_last X (l : list X) x p y : nth_error (l ++ [x]) p = Some y ->
    nth_error l p = Some y \/ (p = length l /\ x = y).
  Proof.
    intros H. destruct (Nat.lt_ge_cases p (length l)) as [Hp|Hp].
    - left. rewrite nth_error_app1 in H by exact Hp. exact H.
    - right. rewrite nth_error_app2 in H by exact Hp. destruct (p - length l) as [|k] eqn:E.
      + cbn in H. split; [lia|congruence].
      + cbn in H. destruct k; discriminate.
  Qed.
  Lemma got_last (ops : list (iop A B K)) (outs : list (iout A B)) o r p i n b : length outs = length ops ->
    got (ops ++ [o]) (outs ++ [r]) p i n b ->
    got ops outs p i n b \/ (p = length ops /\ (exists raising, o = ILoc i raising) /\ r = IView n b).
  Proof.
    intros HL ((x & H1) & H2). apply nth_last in H1. apply nth_last in H2.
    destruct H1 as [H1|[H1 H1']], H2 as [H2|[H2 H2']]; subst.
    - left. split; eauto.
    - exfalso. assert (length outs < length ops) by (apply nth_error_Some; congruence). lia.
    - exfalso. assert (length ops < length outs) by (apply nth_error_Some; congruence). lia.
    - right. eauto.
  Qed.
  Lemma got_more (ops : list (iop A B K)) (outs : list (iout A B)) o r p i n b : got ops outs p i n b -> got (ops ++ [o]) (outs ++ [r]) p i n b.
  Proof.
    intros ((x & H1) & H2). split; [exists x|].
    - rewrite nth_error_app1; [exact H1|apply nth_error_Some; congruence].
    - rewrite nth_error_app1; [exact H2|apply nth_error_Some; congruence].
  Qed.
  Lemma refused_last (ops : list (iop A B K)) (outs : list (iout A B)) o r p i : length outs = length ops ->
    refused (ops ++ [o]) (outs ++ [r]) p i ->
    refused ops outs p i \/ (p = length ops /\ (exists raising, o = ILoc i raising) /\ r = IRaised).
  Proof.
    intros HL ((x & H1) & H2). apply nth_last in H1. apply nth_last in H2.
    destruct H1 as [H1|[H1 H1']], H2 as [H2|[H2 H2']]; subst.
    - left. split; eauto.
    - exfalso. assert (length outs < length ops) by (apply nth_error_Some; congruence). lia.
    - exfalso. assert (length ops < length outs) by (apply nth_error_Some; congruence). lia.
    - right. eauto.
  Qed.
  Lemma got_lt (ops : list (iop A B K)) (outs : list (iout A B)) p i n b : got ops outs p i n b -> p < length ops.
  Proof. intros ((x & H) & _). apply nth_error_Some. congruence. Qed.
  Lemma refused_lt (ops : list (iop A B K)) (outs : list (iout A B)) p i : refused ops outs p i -> p < length ops.
  Proof. intros ((x & H) & _). apply nth_error_Some. congruence. Qed.

  (** A step that reads no [iloc], or finds no SortedDict. *)
  Lemma inv_other ops outs w o r q more : Inv ops outs w -> (forall n b, r <> IView n b) -> r <> IRaised ->
    w_views q = w_views (i_world w) ++ more -> Inv (ops ++ [o]) (outs ++ [r]) (mkiworld q (i_attr w)).
  Proof.
    intros [HL HG HV HF HW HR] Hr Hr' Hq.
    assert (H : forall p i n b, got (ops ++ [o]) (outs ++ [r]) p i n b -> got ops outs p i n b).
    { intros p i n b Hg. apply got_last in Hg; [|exact HL]. destruct Hg as [Hg|(_ & _ & E)]; [exact Hg|]. destruct (Hr _ _ E). }
    assert (H' : forall p i, refused (ops ++ [o]) (outs ++ [r]) p i -> refused ops outs p i).
    { intros p i Hg. apply refused_last in Hg; [|exact HL]. destruct Hg as [Hg|(_ & _ & E)]; [exact Hg|]. destruct (Hr' E). }
    constructor.
    - rewrite !app_length, HL. reflexivity.
    - intros p i n b Hg. exact (HG _ _ _ _ (H _ _ _ _ Hg)).
    - intros i n E. cbn. rewrite Hq. apply getn_more, HV, E.
    - intros i n E. destruct (HF _ _ E) as (k & Hg). exists k. apply got_more, Hg.
    - intros p k i n m b Hg Hg'. exact (HW _ _ _ _ _ _ (H _ _ _ _ Hg) (H _ _ _ _ Hg')).
    - intros p k i n b Hg Hg'. exact (HR _ _ _ _ _ (H' _ _ Hg) (H _ _ _ _ Hg')).
  Qed.

  Lemma inv_run ops outs w : i_run T eqb veqb ops i_init = (outs, w) -> Inv ops outs w.
  Proof.
    revert outs w. induction ops as [|o ops IH] using rev_ind; intros outs w.
    - intros [= <- <-]. constructor; try reflexivity; try discriminate; intros.
      + match goal with H : got [] _ ?p _ _ _ |- _ => destruct H as (_ & H); destruct p; discriminate H end.
      + match goal with H : got [] _ ?p _ _ true |- _ => destruct H as (_ & H); destruct p; discriminate H end.
      + match goal with H : refused [] _ ?p _ |- _ => destruct H as (_ & H); destruct p; discriminate H end.
    - unfold i_run in *. rewrite run_last. destruct (run _ ops _) as (outs0 & w0) eqn:E0. specialize (IH _ _ eq_refl).
      destruct (i_step T eqb veqb o w0) as (r & w1) eqn:E1. intros [= <- <-].
      destruct o as [o|i raising]; cbn [i_step] in E1.
      + destruct (q_step T eqb veqb o (i_world w0)) as (r' & q) eqn:E2. injection E1 as <- <-.
        destruct (views_step o (i_world w0)) as (more & Hm). rewrite E2 in Hm.
        eapply inv_other; [exact IH|discriminate|discriminate|exact Hm].
      + destruct (getn (w_dicts (i_world w0)) i) as [d|e] eqn:Ed.
        2:{ injection E1 as <- <-. destruct w0 as [q0 a0].
            apply (inv_other _ _ _ _ _ q0 [] IH); [discriminate|discriminate|symmetry; apply app_nil_r]. }
        unfold q_iloc in E1. pose proof IH as [HL HG HV HF HW HR].
        destruct (find (fun a => fst a =? i) (i_attr w0)) as [a|] eqn:Ef.
        * (* the attribute is there *)
          injection E1 as <- <-.
          assert (Ea : attr i w0 = Some (snd a)) by (unfold attr; rewrite Ef; reflexivity).
          assert (H : forall p j n b, got (ops ++ [ILoc i raising]) (outs0 ++ [IView (snd a) false]) p j n b ->
                    got ops outs0 p j n b \/ (p = length ops /\ j = i /\ n = snd a /\ b = false)).
          { intros p j n b Hg. apply got_last in Hg; [|exact HL]. destruct Hg as [Hg|(Hp & (x & Eo) & Er)]; [left; exact Hg|right].
            injection Eo as -> ->. injection Er as <- <-. auto. }
          constructor.
          -- rewrite !app_length, HL. reflexivity.
          -- intros p j n b Hg. apply H in Hg. destruct Hg as [Hg|(_ & ? & ? & _)]; [exact (HG _ _ _ _ Hg)|]. subst. exact Ea.
          -- exact HV.
          -- intros j n E. destruct (HF _ _ E) as (k & Hg). exists k. apply got_more, Hg.
          -- intros p q j n m b Hg Hg'. apply H in Hg. apply H in Hg'.
             destruct Hg as [Hg|(_ & _ & _ & E)]; [|discriminate]. destruct Hg' as [Hg'|(-> & _)]; [eapply HW; eassumption|].
             apply got_lt in Hg. lia.
          -- intros p q j n b Hr Hg. apply H in Hg. apply refused_last in Hr; [|exact HL].
             destruct Hr as [Hr|(_ & _ & E)]; [|discriminate]. destruct Hg as [Hg|(-> & _)]; [eapply HR; eassumption|].
             eapply refused_lt, Hr.
        * assert (Ea : attr i w0 = None) by (unfold attr; rewrite Ef; reflexivity).
          assert (Hno : forall p n b, ~ got ops outs0 p i n b).
          { intros p n b Hg. apply HG in Hg. congruence. }
          destruct raising.
          -- (* the warning is raised *)
            injection E1 as <- <-.
            assert (H : forall p j n b, got (ops ++ [ILoc i true]) (outs0 ++ [IRaised]) p j n b -> got ops outs0 p j n b).
            { intros p j n b Hg. apply got_last in Hg; [|exact HL]. destruct Hg as [Hg|(_ & _ & Er)]; [exact Hg|discriminate]. }
            constructor.
            ++ rewrite !app_length, HL. reflexivity.
            ++ intros p j n b Hg. exact (HG _ _ _ _ (H _ _ _ _ Hg)).
            ++ exact HV.
            ++ intros j n E. destruct (HF _ _ E) as (k & Hg). exists k. apply got_more, Hg.
            ++ intros p q j n m b Hg Hg'. exact (HW _ _ _ _ _ _ (H _ _ _ _ Hg) (H _ _ _ _ Hg')).
            ++ intros p q j n b Hr Hg. apply H in Hg. apply refused_last in Hr; [|exact HL].
               destruct Hr as [Hr|(-> & (x & Eo) & _)]; [exact (HR _ _ _ _ _ Hr Hg)|]. injection Eo as -> _. destruct (Hno _ _ _ Hg).
          -- (* a new view *)
            cbn [q_step] in E1. rewrite Ed in E1. injection E1 as <- <-.
            set (n0 := length (w_views (i_world w0))) in *.
            assert (H : forall p j n b, got (ops ++ [ILoc i false]) (outs0 ++ [IView n0 true]) p j n b ->
                      got ops outs0 p j n b \/ (p = length ops /\ j = i /\ n = n0 /\ b = true)).
            { intros p j n b Hg. apply got_last in Hg; [|exact HL]. destruct Hg as [Hg|(Hp & (x & Eo) & Er)]; [left; exact Hg|right].
              injection Eo as Ei _. injection Er as En Eb. auto. }
            assert (Hat : forall j, attr j (mkiworld (mkqworld (w_lists (i_world w0)) (w_dicts (i_world w0)) (w_mine (i_world w0))
                        (w_views (i_world w0) ++ [i])) ((i, n0) :: i_attr w0)) = if i =? j then Some n0 else attr j w0).
            { intros j. unfold attr. cbn. destruct (i =? j); reflexivity. }
            constructor.
            ++ rewrite !app_length, HL. reflexivity.
            ++ intros p j n b Hg. rewrite Hat. apply H in Hg. destruct (Nat.eqb_spec i j) as [->|Hij].
               ** destruct Hg as [Hg|(_ & _ & -> & _)]; [destruct (Hno _ _ _ Hg)|reflexivity].
               ** destruct Hg as [Hg|(_ & ? & _)]; [exact (HG _ _ _ _ Hg)|congruence].
            ++ intros j n E. rewrite Hat in E. cbn. destruct (Nat.eqb_spec i j) as [->|Hij].
               ** injection E as <-. apply getn_app'. reflexivity.
               ** apply getn_more, HV, E.
            ++ intros j n E. rewrite Hat in E. destruct (Nat.eqb_spec i j) as [->|Hij].
               ** injection E as <-. exists (length ops). split; [exists false; rewrite nth_error_app2, Nat.sub_diag by lia; reflexivity|].
                  rewrite nth_error_app2, HL, Nat.sub_diag by lia. reflexivity.
               ** destruct (HF _ _ E) as (k & Hg). exists k. apply got_more, Hg.
            ++ intros p q j n m b Hg Hg'. apply H in Hg. apply H in Hg'.
               destruct Hg as [Hg|(-> & -> & _)], Hg' as [Hg'|(-> & E & _)]; try subst j.
               ** eapply HW; eassumption.
               ** apply got_lt in Hg. lia.
               ** destruct (Hno _ _ _ Hg').
               ** lia.
            ++ intros p q j n b Hr Hg. apply H in Hg. apply refused_last in Hr; [|exact HL].
               destruct Hr as [Hr|(_ & _ & E)]; [|discriminate]. destruct Hg as [Hg|(-> & _)]; [eapply HR; eassumption|].
               eapply refused_lt, Hr.
  Qed.
End IlocFacts.

Lemma c103_one_view : forall S A B K (T : listcls S A K) eqb (veqb : B -> B -> bool) ops outs w p i n b,
  i_run T eqb veqb ops i_init = (outs, w) -> got ops outs p i n b ->
  (forall q j m c, got ops outs q j m c -> n = m <-> i = j) /\
  (b = true <-> forall q m c, got ops outs q i m c -> p <= q) /\
  (forall q, refused ops outs q i -> q < p).
Proof.
  intros S A B K T eqb veqb ops outs w p i n b HR Hg. destruct (inv_run T eqb veqb _ _ _ HR) as [HL HG HV HF HW HX].
  split; [|split].
  - intros q j m c Hg'. pose proof (HG _ _ _ _ Hg) as E1. pose proof (HG _ _ _ _ Hg') as E2. split.
    + intros <-. apply HV in E1. apply HV in E2. congruence.
    + intros <-. congruence.
  - split.
    + intros -> q m c Hg'. eapply HW; eassumption.
    + intros Hq. destruct (HF _ _ (HG _ _ _ _ Hg)) as (k & Hk). pose proof (Hq _ _ _ Hk). pose proof (HW _ _ _ _ _ _ Hk Hg).
      assert (k = p) by lia. subst k. destruct Hk as (_ & E1), Hg as (_ & E2). congruence.
  - intros q Hr. eapply HX; eassumption.
Qed.

Lemma c103_view : forall S A B K (T : listcls S A K) eqb (veqb : B -> B -> bool) ops outs w p i n b o,
  i_run T eqb veqb ops i_init = (outs, w) -> got ops outs p i n b ->
  i_step T eqb veqb (IOther (QViewOp n o)) w = i_step T eqb veqb (IOther (QOp i o)) w.
Proof.
  intros S A B K T eqb veqb ops outs w p i n b o HR Hg. destruct (inv_run T eqb veqb _ _ _ HR) as [HL HG HV HF HW HX].
  cbn [i_step q_step]. rewrite (HV _ _ (HG _ _ _ _ Hg)). reflexivity.
Qed.

Lemma c103_reads_nothing : forall S A B K (T : listcls S A K) eqb (veqb : B -> B -> bool) i raising w,
  let w' := i_world (snd (i_step (K := K) T eqb veqb (ILoc i raising) w)) in
  w_lists w' = w_lists (i_world w) /\ w_dicts w' = w_dicts (i_world w) /\ w_mine w' = w_mine (i_world w) /\
  (raising = true -> w_views w' = w_views (i_world w)).
Proof.
  intros. subst w'. cbn [i_step]. unfold q_iloc. destruct (getn (w_dicts (i_world w)) i) eqn:E; [|auto].
  destruct (find _ _); [auto|]. destruct raising; [auto|]. cbn [q_step]. rewrite E. cbn. repeat split. discriminate.
Qed.

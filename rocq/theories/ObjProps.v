(** * Proofs: programs with SortedSet objects (C84) *)
From Coq Require Import Permutation.
From Verif Require Import PyBase Model Spec History Reach ListClass ClassSpec ModelSet SetSpec ModelObj ObjSpec ObjFacts.
Local Unset Implicit Arguments.

Lemma nodup_other : forall A (l : list A) i j x y,
  NoDup l -> nth_error l i = Some x -> nth_error l j = Some y -> i <> j -> x <> y.
Proof.
  intros A l i j x y N Hi Hj D E. subst y. apply D.
  apply (proj1 (NoDup_nth_error l) N); [eapply nth_len; eauto|congruence].
Qed.
Lemma put_in : forall A (l : list A) i x y, In y (put l i x) -> y = x \/ In y l.
Proof.
  intros A l. induction l; intros i x y H; destruct i; simpl in *; auto.
  - destruct H; auto.
  - destruct H as [H|H]; auto. apply IHl in H. tauto.
Qed.
Lemma nodup_put : forall A (l : list A) i x, NoDup l -> ~ In x l -> NoDup (put l i x).
Proof.
  intros A l. induction l; intros i x N F; destruct i; simpl; auto.
  - inversion N; subst. constructor; auto. intro; apply F; simpl; auto.
  - inversion N; subst. constructor.
    + intro C. apply put_in in C. destruct C as [C|C]; [|auto]. apply F. simpl. auto.
    + apply IHl; auto. intro; apply F; simpl; auto.
Qed.

Section World.
  Context {S V K : Type}.
  Variable T : listcls S V K.
  Variable eqb : V -> V -> bool.
  Variable ord : nat -> list V -> list V.
  Notation PW := (pworld S V).
  Notation RW := (rworld S V).

  Record Rel0 (h : sheap S V) (objs : list sobj) (mine : list nat) (robjs : list (list V * S)) (rmine : list (list V)) : Prop := {
    rl_objs : length objs = length robjs;
    rl_mine : length mine = length rmine;
    rl_obj : forall i o p, nth_error objs i = Some o -> nth_error robjs i = Some p -> holds h o (fst p) (snd p);
    rl_own : forall u r m, nth_error mine u = Some r -> nth_error rmine u = Some m -> nth_error (h_sets h) r = Some m;
    rl_sets : NoDup (map o_set objs ++ mine);
    rl_lists : NoDup (map o_list objs) }.
  Definition Rel (w : PW) (rw : RW) : Prop :=
    Rel0 (p_heap w) (p_objs w) (p_mine w) (r_objs rw) (r_mine rw).
  Definition RelT (w : PW) (rw : RW) : Prop := Rel w rw /\ h_tick (p_heap w) = r_tick rw.

  Lemma rel_look : forall h objs mine robjs rmine i, Rel0 h objs mine robjs rmine ->
    match nth_error robjs i with
    | Some p => exists o, nth_error objs i = Some o /\ holds h o (fst p) (snd p)
    | None => nth_error objs i = None
    end.
  Proof.
    intros h objs mine robjs rmine i R. destruct (nth_error robjs i) as [p|] eqn:E.
    - destruct (nth_error objs i) as [o|] eqn:E2.
      + exists o. split; auto. eapply rl_obj; eauto.
      + apply nth_error_None in E2. apply nth_len in E. pose proof (rl_objs _ _ _ _ _ R). lia.
    - apply nth_error_None. apply nth_error_None in E. pose proof (rl_objs _ _ _ _ _ R). lia.
  Qed.
  Lemma rel_own : forall h objs mine robjs rmine u, Rel0 h objs mine robjs rmine ->
    match nth_error rmine u with
    | Some m => exists r, nth_error mine u = Some r /\ nth_error (h_sets h) r = Some m
    | None => nth_error mine u = None
    end.
  Proof.
    intros h objs mine robjs rmine i R. destruct (nth_error rmine i) as [p|] eqn:E.
    - destruct (nth_error mine i) as [o|] eqn:E2.
      + exists o. split; auto. eapply rl_own; eauto.
      + apply nth_error_None in E2. apply nth_len in E. pose proof (rl_mine _ _ _ _ _ R). lia.
    - apply nth_error_None. apply nth_error_None in E. pose proof (rl_mine _ _ _ _ _ R). lia.
  Qed.

  Lemma holds_len : forall (h : sheap S V) o m l, holds h o m l -> o_set o < length (h_sets h) /\ o_list o < length (h_lists h).
  Proof. intros h o m l (A & B & _). split; eapply nth_len; eauto. Qed.
  Lemma holds_grows : forall (h h' : sheap S V) o m l, holds h o m l -> grows h h' -> holds h' o m l.
  Proof.
    intros h h' o m l A (G1 & G2 & G3 & G4). destruct (holds_len _ _ _ _ A). destruct A as (A1 & A2 & A3).
    split; [rewrite G3; auto|split; [rewrite G4; auto|auto]].
  Qed.
  Lemma rel_grows : forall h h' objs mine robjs rmine, Rel0 h objs mine robjs rmine -> grows h h' -> Rel0 h' objs mine robjs rmine.
  Proof.
    intros h h' objs mine robjs rmine R G. destruct R. constructor; auto.
    - intros. eapply holds_grows; eauto.
    - intros u r m A B. pose proof (rl_own0 u r m A B) as C. pose proof (nth_len _ _ _ _ C).
      destruct G as (_ & _ & G & _). rewrite G; auto.
  Qed.

  Lemma obj_set_other : forall h objs mine robjs rmine i j oi oj, Rel0 h objs mine robjs rmine ->
    nth_error objs i = Some oi -> nth_error objs j = Some oj -> i <> j -> o_set oi <> o_set oj /\ o_list oi <> o_list oj.
  Proof.
    intros h objs mine robjs rmine i j oi oj R Hi Hj D. split.
    - eapply (nodup_other _ _ i j); [apply (rl_sets _ _ _ _ _ R)| | |auto];
        rewrite nth_error_app1 by (rewrite map_length; eapply nth_len; eauto); apply map_nth_error; auto.
    - eapply (nodup_other _ _ i j); [apply (rl_lists _ _ _ _ _ R)| | |auto]; apply map_nth_error; auto.
  Qed.
  Lemma own_set_other : forall h objs mine robjs rmine i u o r, Rel0 h objs mine robjs rmine ->
    nth_error objs i = Some o -> nth_error mine u = Some r -> o_set o <> r.
  Proof.
    intros h objs mine robjs rmine i u o r R Hi Hu.
    eapply (nodup_other _ _ i (length (map o_set objs) + u)); [apply (rl_sets _ _ _ _ _ R)| | |].
    - rewrite nth_error_app1 by (rewrite map_length; eapply nth_len; eauto). apply map_nth_error; auto.
    - rewrite nth_error_app2 by lia. replace (_ + u - _) with u by lia. auto.
    - rewrite map_length. pose proof (nth_len _ _ _ _ Hi). lia.
  Qed.

  (** The [i]-th object changes. *)
  Lemma rel_put : forall h h' objs mine robjs rmine i o o' p, Rel0 h objs mine robjs rmine ->
    nth_error objs i = Some o -> keep o h h' -> holds h' o' (fst p) (snd p) -> o_set o' = o_set o ->
    (o_list o' = o_list o \/ length (h_lists h) <= o_list o') ->
    Rel0 h' (put objs i o') mine (put robjs i p) rmine.
  Proof.
    intros h h' objs mine robjs rmine i o o' p R Hi KP HH E1 E2.
    pose proof KP as (K1 & K2 & K3 & K4).
    assert (Li : i < length objs) by (eapply nth_len; eauto).
    constructor.
    - rewrite !put_length. apply R.
    - apply R.
    - intros j oj pj Hj Hp. destruct (Nat.eq_dec j i) as [->|D].
      + rewrite put_same in Hj by auto. rewrite put_same in Hp by (rewrite <- (rl_objs _ _ _ _ _ R); auto).
        inversion Hj; inversion Hp; subst. exact HH.
      + rewrite put_other in Hj by auto. rewrite put_other in Hp by auto.
        pose proof (rl_obj _ _ _ _ _ R j oj pj Hj Hp) as HO. pose proof (holds_len _ _ _ _ HO) as (L1 & L2).
        destruct (obj_set_other _ _ _ _ _ j i oj o R Hj Hi D) as (N1 & N2).
        destruct HO as (O1 & O2 & O3). split; [rewrite K3; auto|split; [rewrite K4; auto|auto]].
    - intros u r m Hu Hm. pose proof (rl_own _ _ _ _ _ R u r m Hu Hm) as HO.
      rewrite K3; auto; [eapply nth_len; eauto|]. intro C. symmetry in C. revert C. eapply own_set_other; eauto.
    - rewrite map_put, E1. rewrite put_self; [apply R|]. apply map_nth_error; auto.
    - rewrite map_put. destruct E2 as [E2|E2].
      + rewrite E2, put_self; [apply R|]. apply map_nth_error; auto.
      + apply nodup_put; [apply R|]. intro C. apply in_map_iff in C. destruct C as (x & C1 & C2).
        apply In_nth_error in C2. destruct C2 as (j & C2). pose proof (rel_look _ _ _ _ _ j R) as LK.
        destruct (nth_error robjs j); [|congruence]. destruct LK as (x' & X1 & X2).
        apply holds_len in X2. rewrite X1 in C2. inversion C2; subst. lia.
  Qed.

  Lemma in_objs : forall h objs mine robjs rmine o, Rel0 h objs mine robjs rmine -> In o objs ->
    o_set o < length (h_sets h) /\ o_list o < length (h_lists h).
  Proof.
    intros h objs mine robjs rmine o R C. apply In_nth_error in C. destruct C as (j & C).
    pose proof (rel_look _ _ _ _ _ j R) as LK. destruct (nth_error robjs j); [|congruence].
    destruct LK as (x & X1 & X2). rewrite X1 in C. inversion C; subst. eapply holds_len; eauto.
  Qed.
  Lemma in_mine : forall h objs mine robjs rmine r, Rel0 h objs mine robjs rmine -> In r mine -> r < length (h_sets h).
  Proof.
    intros h objs mine robjs rmine r R C. apply In_nth_error in C. destruct C as (j & C).
    pose proof (rel_own _ _ _ _ _ j R) as LK. destruct (nth_error rmine j); [|congruence].
    destruct LK as (x & X1 & X2). rewrite X1 in C. inversion C; subst. eapply nth_len; eauto.
  Qed.

  Lemma nodup_snoc : forall A (l : list A) x, NoDup l -> ~ In x l -> NoDup (l ++ [x]).
  Proof.
    intros A l x N F. apply (Permutation_NoDup (l := x :: l)); [apply Permutation_cons_append|constructor; auto].
  Qed.

  Lemma rel_add : forall h h' objs mine robjs rmine o' p, Rel0 h objs mine robjs rmine ->
    grows h h' -> holds h' o' (fst p) (snd p) -> length (h_sets h) <= o_set o' -> length (h_lists h) <= o_list o' ->
    Rel0 h' (objs ++ [o']) mine (robjs ++ [p]) rmine.
  Proof.
    intros h h' objs mine robjs rmine o' p R G HH L1 L2.
    pose proof (rel_grows _ _ _ _ _ _ R G) as R'. constructor.
    - rewrite !app_length. simpl. rewrite (rl_objs _ _ _ _ _ R). auto.
    - apply R.
    - intros j oj pj Hj Hp. destruct (lt_dec j (length objs)).
      + rewrite nth_error_app1 in Hj by auto. rewrite nth_error_app1 in Hp by (rewrite <- (rl_objs _ _ _ _ _ R); auto).
        eapply rl_obj; eauto.
      + rewrite nth_error_app2 in Hj by lia. rewrite nth_error_app2 in Hp by (rewrite <- (rl_objs _ _ _ _ _ R); lia).
        rewrite <- (rl_objs _ _ _ _ _ R) in Hp.
        destruct (j - length objs) as [|k]; simpl in Hj, Hp; [inversion Hj; inversion Hp; subst; auto|destruct k; discriminate].
    - apply R'.
    - rewrite map_app. simpl. rewrite <- app_assoc. simpl.
      apply (Permutation_NoDup (l := o_set o' :: map o_set objs ++ mine)); [apply Permutation_middle|].
      constructor; [|apply R]. intro C. apply in_app_or in C. destruct C as [C|C].
      + apply in_map_iff in C. destruct C as (x & C1 & C2). apply (in_objs _ _ _ _ _ _ R) in C2. lia.
      + apply (in_mine _ _ _ _ _ _ R) in C. lia.
    - rewrite map_app. simpl. apply nodup_snoc; [apply R|].
      intro C. apply in_map_iff in C. destruct C as (x & C1 & C2). apply (in_objs _ _ _ _ _ _ R) in C2. lia.
  Qed.

  Lemma rel_mine_add : forall h h' objs mine robjs rmine r m, Rel0 h objs mine robjs rmine ->
    grows h h' -> nth_error (h_sets h') r = Some m -> length (h_sets h) <= r ->
    Rel0 h' objs (mine ++ [r]) robjs (rmine ++ [m]).
  Proof.
    intros h h' objs mine robjs rmine r m R G HH L1.
    pose proof (rel_grows _ _ _ _ _ _ R G) as R'. constructor; try apply R'.
    - rewrite !app_length. simpl. rewrite (rl_mine _ _ _ _ _ R). auto.
    - intros j oj pj Hj Hp. destruct (lt_dec j (length mine)).
      + rewrite nth_error_app1 in Hj by auto. rewrite nth_error_app1 in Hp by (rewrite <- (rl_mine _ _ _ _ _ R); auto).
        eapply rl_own; eauto.
      + rewrite nth_error_app2 in Hj by lia. rewrite nth_error_app2 in Hp by (rewrite <- (rl_mine _ _ _ _ _ R); lia).
        rewrite <- (rl_mine _ _ _ _ _ R) in Hp.
        destruct (j - length mine) as [|k]; simpl in Hj, Hp; [inversion Hj; inversion Hp; subst; auto|destruct k; discriminate].
    - rewrite app_assoc. apply nodup_snoc; [apply R|].
      intro C. apply in_app_or in C. destruct C as [C|C].
      + apply in_map_iff in C. destruct C as (x & C1 & C2). apply (in_objs _ _ _ _ _ _ R) in C2. lia.
      + apply (in_mine _ _ _ _ _ _ R) in C. lia.
  Qed.

  Lemma rel_mine_put : forall h objs mine robjs rmine u r m t, Rel0 h objs mine robjs rmine ->
    nth_error mine u = Some r ->
    Rel0 (mksheap (put (h_sets h) r m) (h_lists h) t) objs mine robjs (put rmine u m).
  Proof.
    intros h objs mine robjs rmine u r m t R Hu.
    assert (L : r < length (h_sets h)) by (eapply in_mine; eauto; eapply nth_error_In; eauto).
    constructor; try apply R.
    - rewrite put_length. apply R.
    - intros j oj pj Hj Hp. pose proof (rl_obj _ _ _ _ _ R j oj pj Hj Hp) as (O1 & O2 & O3).
      pose proof (own_set_other _ _ _ _ _ j u oj r R Hj Hu) as N.
      split; [|split; [|]]; simpl; auto. rewrite put_other; auto.
    - intros j rj mj Hj Hm. simpl. destruct (Nat.eq_dec j u) as [->|D].
      + rewrite Hu in Hj. inversion Hj; subst rj.
        rewrite put_same in Hm by (rewrite <- (rl_mine _ _ _ _ _ R); eapply nth_len; eauto).
        inversion Hm; subst. apply put_same; auto.
      + rewrite put_other in Hm by auto. rewrite put_other; [eapply rl_own; eauto|].
        eapply (nodup_other _ mine j u); eauto.
        pose proof (rl_sets _ _ _ _ _ R) as ND. clear - ND. induction (map o_set objs); simpl in ND; auto. inversion ND; auto.
  Qed.

  (** Computations of the two worlds. *)
  Definition WSim {A} (m : M PW A) (m' : M RW A) : Prop := forall w rw, RelT w rw ->
    exists a w' rw', m w = (a, w') /\ m' rw = (a, rw') /\ Rel w' rw' /\
      (match a with Ok _ => h_tick (p_heap w') = r_tick rw' | Err _ => True end).
  Definition WStep (m : PW -> out V * PW) (m' : RW -> out V * RW) : Prop := forall w rw, RelT w rw ->
    exists a w' rw', m w = (a, w') /\ m' rw = (a, rw') /\ Rel w' rw'.

  Lemma wstep_then : forall A (m : M PW A) m' (k : A -> PW -> out V * PW) k',
    WSim m m' -> (forall a, WStep (k a) (k' a)) -> WStep (after_eval m k) (r_then m' k').
  Proof.
    intros A m m' k k' Hm Hk w rw R. destruct (Hm w rw R) as (a & w1 & rw1 & E1 & E2 & R1 & TK).
    unfold after_eval, r_then. rewrite E1, E2. destruct a as [a|e].
    - apply Hk. split; auto.
    - eexists _, _, _. eauto.
  Qed.
  Lemma wsim_ret : forall A (a : A), WSim (ret a) (ret a).
  Proof. intros A a w rw (R & TK). eexists _, _, _. split; [reflexivity|split; [reflexivity|auto]]. Qed.
  Lemma wsim_bind : forall A B (m : M PW A) m' (k : A -> M PW B) k',
    WSim m m' -> (forall a, WSim (k a) (k' a)) -> WSim (bind m k) (bind m' k').
  Proof.
    intros A B m m' k k' Hm Hk w rw R. destruct (Hm w rw R) as (a & w1 & rw1 & E1 & E2 & R1 & TK).
    unfold bind. rewrite E1, E2. destruct a as [a|e].
    - apply Hk. split; auto.
    - eexists _, _, _. eauto.
  Qed.
  Lemma wsim_mapM : forall A B (f : A -> M PW B) f' l, (forall a, WSim (f a) (f' a)) -> WSim (mapM f l) (mapM f' l).
  Proof.
    intros A B f f' l Hf. induction l; simpl; [apply wsim_ret|].
    apply wsim_bind; auto. intro. apply wsim_bind; auto. intro. apply wsim_ret.
  Qed.

  Lemma with_self_sim : forall A (m : sheap S V * sobj -> A * (sheap S V * sobj)) m' dfl i w rw, RelT w rw -> Sim m m' ->
    match nth_error (r_objs rw) i with
    | None => with_self i m dfl w = (dfl IndexError, w)
    | Some p => exists a s w', with_self i m dfl w = (a, w') /\ m' (value rw p) = (a, s) /\ RelT w' (put_value i s rw)
    end.
  Proof.
    intros A m m' dfl i w rw (R & TK) Hm. pose proof (rel_look _ _ _ _ _ i R) as LK. unfold with_self.
    destruct (nth_error (r_objs rw) i) as [p|] eqn:EP.
    - destruct LK as (o & Ho & HH). rewrite (proj2 (getn_nth _ _ _ _) Ho).
      destruct (Hm (p_heap w) o (value rw p)) as (a & h' & s' & E1 & E2 & R1 & F).
      { split; auto. }
      rewrite E1, E2. rewrite setn_put by (eapply nth_len; eauto). rewrite put_self by auto.
      exists a, s', (mkpworld h' (p_objs w) (p_mine w)). split; auto. split; auto.
      destruct R1 as (R1 & R2). split; [|auto]. unfold Rel. simpl.
      rewrite <- (put_self _ (p_objs w) i o Ho). eapply rel_put; eauto.
    - rewrite (getn_none _ _ _ LK). reflexivity.
  Qed.

  Lemma eval_sim : forall a, WSim (eval T ord a) (r_eval T ord a).
  Proof.
    intros a w rw RT. pose proof RT as (R & TK). destruct a as [l|u|i]; simpl.
    - eexists _, _, _. split; [reflexivity|split; [reflexivity|auto]].
    - pose proof (rel_own _ _ _ _ _ u R) as LK. destruct (nth_error (r_mine rw) u) as [m|] eqn:E.
      + destruct LK as (r & L1 & L2). rewrite (proj2 (getn_nth _ _ _ _) L1).
        unfold on_heap, deref, hvisit, bind, get, liftr, modify, ret. simpl. rewrite (proj2 (getn_nth _ _ _ _) L2). simpl.
        rewrite TK. eexists _, _, _. split; [reflexivity|split; [reflexivity|]]. split; [|simpl; auto].
        unfold Rel. simpl. eapply rel_grows; [exact R|apply grows_tick].
      + rewrite (getn_none _ _ _ LK). eexists _, _, _. split; [reflexivity|split; [reflexivity|auto]].
    - assert (HS : Sim (l <- honlist (l_iter T) ;; ret (AIter l)) (l <- ss_iter T ;; ret (AIter l)))
        by (apply sim_bind; [apply sim_onlist|intro; apply sim_ret]).
      pose proof (with_self_sim _ _ _ (@Err _) i w rw RT HS) as W. unfold r_on.
      destruct (nth_error (r_objs rw) i) as [p|].
      + destruct W as (a & s & w' & E1 & E2 & R1 & TK1). rewrite E1, E2.
        eexists _, _, _. split; [reflexivity|split; [reflexivity|]]. split; [exact R1|]. destruct a; auto.
      + rewrite W. eexists _, _, _. split; [reflexivity|split; [reflexivity|auto]].
  Qed.
  Lemma eval_opt_sim : forall a, WSim (eval_opt T ord a) (r_eval_opt T ord a).
  Proof.
    intros [a|]; simpl; [|apply wsim_ret]. apply wsim_bind; [apply eval_sim|intro; apply wsim_ret].
  Qed.
  Lemma operand_sim : forall a, WSim (operand a) (r_operand a).
  Proof.
    intros a w rw RT. pose proof RT as (R & TK). destruct a as [l|u|i]; simpl.
    - eexists _, _, _. split; [reflexivity|split; [reflexivity|auto]].
    - pose proof (rel_own _ _ _ _ _ u R) as LK. destruct (nth_error (r_mine rw) u) as [m|] eqn:E.
      + destruct LK as (r & L1 & L2). rewrite (proj2 (getn_nth _ _ _ _) L1).
        unfold on_heap, deref, bind, get, liftr. simpl. rewrite (proj2 (getn_nth _ _ _ _) L2). simpl.
        eexists _, _, _. split; [reflexivity|split; [reflexivity|]]. split; auto.
      + rewrite (getn_none _ _ _ LK). eexists _, _, _. split; [reflexivity|split; [reflexivity|auto]].
    - pose proof (with_self_sim _ _ _ (@Err _) i w rw RT sim_members) as W.
      destruct (nth_error (r_objs rw) i) as [p|] eqn:E.
      + destruct W as (a & s & w' & E1 & E2 & R1 & TK1). rewrite E1.
        unfold members, bind, get, ret in E2. inversion E2; subst. simpl.
        eexists _, _, _. split; [reflexivity|split; [reflexivity|]].
        unfold Rel, put_value in *. simpl in *. rewrite put_self in R1 by (rewrite E; destruct p; auto). auto.
      + rewrite W. eexists _, _, _. split; [reflexivity|split; [reflexivity|auto]].
  Qed.

  Lemma do_sim : iter_reads T -> forall i o, WStep (p_do T eqb ord i o) (r_do T eqb ord i o).
  Proof.
    intros I i op w rw (R & TK). unfold p_do, r_do, with_self. pose proof (rel_look _ _ _ _ _ i R) as LK.
    destruct (nth_error (r_objs rw) i) as [p|] eqn:EP.
    - destruct LK as (o & Ho & HH). rewrite (proj2 (getn_nth _ _ _ _) Ho).
      assert (RP : rep (p_heap w) o (value rw p)) by (split; auto).
      pose proof (do_ok T eqb ord I op _ _ _ RP) as D. unfold step_ok in D.
      destruct (ss_step T eqb ord op (value rw p)) as [r s']. destruct (makes op).
      + destruct D as (h' & G & [(o' & E1 & -> & R1 & L1 & L2)|(e & E1 & ->)]); rewrite E1;
          rewrite setn_put by (eapply nth_len; eauto); rewrite put_self by auto.
        * eexists _, _, _. split; [reflexivity|split; [reflexivity|]]. unfold Rel. simpl.
          destruct R1 as (R1 & _). eapply rel_add; eauto.
        * eexists _, _, _. split; [reflexivity|split; [reflexivity|]]. unfold Rel. simpl. eapply rel_grows; eauto.
      + destruct D as (h' & E1 & R1 & F). rewrite E1.
        rewrite setn_put by (eapply nth_len; eauto). rewrite put_self by auto.
        eexists _, _, _. split; [reflexivity|split; [reflexivity|]]. unfold Rel. simpl.
        rewrite <- (put_self _ (p_objs w) i o Ho). destruct R1 as (R1 & _). eapply rel_put; eauto.
    - rewrite (getn_none _ _ _ LK). eexists _, _, _. split; [reflexivity|split; [reflexivity|auto]].
  Qed.

  Lemma again_sim : forall i, WSim (with_self i (hs_attach T ord true) (@Err _)) (r_again T ord i).
  Proof.
    intros i w rw (R & TK). unfold r_again, with_self. pose proof (rel_look _ _ _ _ _ i R) as LK.
    destruct (nth_error (r_objs rw) i) as [p|] eqn:EP.
    - destruct LK as (o & Ho & HH). rewrite (proj2 (getn_nth _ _ _ _) Ho).
      assert (Hs : nth_error (h_sets (p_heap w)) (o_set o) = Some (fst p)) by apply HH.
      pose proof (attach_ok T ord (p_heap w) o (fst p) Hs) as A. rewrite TK in A.
      destruct (ss_fromset T ord (r_tick rw) (fst p)) as [s|e].
      + destruct A as (A1 & A2 & A3). rewrite A3. rewrite setn_put by (eapply nth_len; eauto).
        eexists _, _, _. split; [reflexivity|split; [reflexivity|]]. split; [|simpl; auto].
        unfold Rel. simpl. rewrite A1. eapply rel_put; eauto.
        * apply grows_keep. apply grows_list.
        * pose proof (rep_new (p_heap w) (o_set o) (fst p) (s_list s) (r_tick rw + 1) Hs) as (RN & _). exact RN.
      + rewrite A. rewrite setn_put by (eapply nth_len; eauto). rewrite put_self by auto.
        eexists _, _, _. split; [reflexivity|split; [reflexivity|]]. split; [|simpl; auto].
        unfold Rel. simpl. eapply rel_grows; [exact R|apply grows_tick].
    - rewrite (getn_none _ _ _ LK). eexists _, _, _. split; [reflexivity|split; [reflexivity|auto]].
  Qed.

  Lemma own_sim : forall u (f : list V -> list V),
    WStep (fun w => match getn (p_mine w) u with
        | Ok r => after_eval (on_heap (m <- deref r ;; store r (f m))) (fun _ w => (RUnit, w)) w
        | Err e => (RExn e, w) end) (r_own u f).
  Proof.
    intros u f w rw (R & TK). unfold r_own. pose proof (rel_own _ _ _ _ _ u R) as LK.
    destruct (nth_error (r_mine rw) u) as [m|] eqn:E.
    - destruct LK as (r & L1 & L2). rewrite (proj2 (getn_nth _ _ _ _) L1).
      unfold after_eval, on_heap, deref, store, bind, get, liftr, modifyR. simpl.
      rewrite (proj2 (getn_nth _ _ _ _) L2). simpl. rewrite setn_put by (eapply nth_len; eauto). simpl.
      eexists _, _, _. split; [reflexivity|split; [reflexivity|]]. unfold Rel. simpl. eapply rel_mine_put; eauto.
    - rewrite (getn_none _ _ _ LK). eexists _, _, _. split; [reflexivity|split; [reflexivity|auto]].
  Qed.

  Lemma step_sim : iter_reads T -> forall o, WStep (p_step T eqb ord o) (r_step T eqb ord o).
  Proof.
    intros I o. destruct o; simpl.
    - apply wstep_then; [apply eval_sim|]. intros x w rw (R & TK).
      unfold on_heap, new_set, bind, get, modify, ret. simpl.
      eexists _, _, _. split; [reflexivity|split; [reflexivity|]]. unfold Rel. simpl.
      eapply rel_mine_add; eauto; [apply grows_set|]. simpl. rewrite nth_error_app2, Nat.sub_diag; auto.
    - apply own_sim.
    - apply own_sim.
    - apply wstep_then; [apply (eval_sim (PMine u))|]. intros x w rw (R & TK). eexists _, _, _. split; [reflexivity|split; [reflexivity|auto]].
    - apply wstep_then; [apply eval_opt_sim|]. intros x w rw (R & TK).
      pose proof (new_ok T eqb ord (p_heap w) (mksobj 0 0 0 0) x) as B. unfold born in B. rewrite TK in B. unfold on_heap.
      destruct (ss_new T eqb ord (r_tick rw) x) as [s|e].
      + destruct B as (h' & o' & E1 & R1 & G & L1 & L2). rewrite E1.
        eexists _, _, _. split; [reflexivity|split; [reflexivity|]]. unfold Rel. simpl.
        destruct R1 as (R1 & _). eapply rel_add; eauto.
      + destruct B as (h' & E1 & G). rewrite E1.
        eexists _, _, _. split; [reflexivity|split; [reflexivity|]]. unfold Rel. simpl. eapply rel_grows; eauto.
    - apply wstep_then; [apply again_sim|]. intros _. apply wstep_then; [apply eval_opt_sim|]. intros x w rw RT.
      destruct x as [a'|]; simpl.
      + pose proof (with_self_sim _ _ _ (@RExn V) i w rw RT
          (sim_observe _ (@runit V) _ _ (sim_update T eqb ord [a']))) as W.
        unfold r_do. destruct (nth_error (r_objs rw) i) as [p|] eqn:EP.
        * destruct W as (r & s & w' & E1 & E2 & R1 & _). unfold ss_step. rewrite E1, E2. simpl.
          eexists _, _, _. split; [reflexivity|split; [reflexivity|exact R1]].
        * rewrite W. eexists _, _, _. split; [reflexivity|split; [reflexivity|apply RT]].
      + pose proof (with_self_sim _ _ _ (@RExn V) i w rw RT (sim_observe _ (@runit V) _ _ (sim_ret _ tt))) as W.
        destruct (nth_error (r_objs rw) i) as [p|] eqn:EP.
        * destruct W as (r & s & w' & E1 & E2 & R1 & _). rewrite E1. inversion E2; subst.
          eexists _, _, _. split; [reflexivity|split; [reflexivity|]].
          unfold Rel, put_value in *. simpl in *. rewrite put_self in R1 by (rewrite EP; destruct p; auto). auto.
        * rewrite W. eexists _, _, _. split; [reflexivity|split; [reflexivity|apply RT]].
    - apply do_sim; auto.
    - apply wstep_then; [apply wsim_mapM; apply eval_sim|]. intro. apply do_sim; auto.
    - apply wstep_then; [apply eval_sim|]. intro. apply do_sim; auto.
    - apply wstep_then; [apply operand_sim|]. intro. apply do_sim; auto.
  Qed.
End World.

Lemma run_sim : forall S V K (T : listcls S V K) eqb ord, iter_reads T ->
  forall ops n w outs w' outs' objs mine objs' mine', Rel0 (p_heap w) (p_objs w) (p_mine w) objs mine ->
  p_run T eqb ord n ops w = (outs, w') -> r_run T eqb ord n ops (objs, mine) = (outs', (objs', mine')) ->
  outs = outs' /\ Rel0 (p_heap w') (p_objs w') (p_mine w') objs' mine'.
Proof.
  intros S V K T eqb ord I ops. induction ops as [|o ops IH]; simpl; intros n w outs w' outs' objs mine objs' mine' R E1 E2.
  - inversion E1; inversion E2; subst. auto.
  - destruct (step_sim T eqb (ord n) I o (rewind w) (mkrworld objs mine 0)) as (a & w1 & rw1 & A1 & A2 & R1).
    { split; [|reflexivity]. unfold Rel. simpl. eapply rel_grows; [exact R|apply grows_tick]. }
    rewrite A1 in E1. simpl in E2. rewrite A2 in E2.
    destruct (p_run T eqb ord (n + 1) ops w1) as [rs w2] eqn:E3.
    destruct (r_run T eqb ord (n + 1) ops (r_objs rw1, r_mine rw1)) as [rs' [oo mm]] eqn:E4.
    inversion E1; inversion E2; subst.
    destruct (IH _ _ _ _ _ _ _ _ _ R1 E3 E4) as (B1 & B2). subst. auto.
Qed.

Lemma rel_init : forall S V, Rel0 (p_heap (@p_init S V)) (p_objs (@p_init S V)) (p_mine (@p_init S V)) [] [].
Proof.
  intros. constructor; simpl; auto using NoDup_nil.
  - intros i o p H. destruct i; discriminate.
  - intros u r m H. destruct u; discriminate.
Qed.

Lemma map_nth_eq : forall A B C (f : A -> C) (g : B -> C) la lb, length la = length lb ->
  (forall i a b, nth_error la i = Some a -> nth_error lb i = Some b -> f a = g b) -> map f la = map g lb.
Proof.
  intros A B C f g la. induction la; destruct lb; simpl; intros L H; try discriminate; auto.
  f_equal; [apply (H 0); auto|]. apply IHla; [lia|]. intros i x y. apply (H (Datatypes.S i)).
Qed.

Lemma c84_values : forall S V K (T : listcls S V K) (eqb : V -> V -> bool) (ord : nat -> nat -> list V -> list V) n ops outs w outs' objs mine,
  iter_reads T -> p_run T eqb ord n ops p_init = (outs, w) -> r_run T eqb ord n ops ([], []) = (outs', (objs, mine)) ->
  outs = outs' /\ seen w = map (fun p => (Ok (fst p), Ok (snd p))) objs /\ seen_mine w = map (@Ok _) mine /\ unshared w.
Proof.
  intros S V K T eqb ord n ops outs w outs' objs mine I E1 E2.
  destruct (run_sim S V K T eqb ord I ops n p_init outs w outs' [] [] objs mine (rel_init S V) E1 E2) as (A & R).
  split; [exact A|]. split; [|split].
  - apply map_nth_eq; [apply R|]. intros i o p Ho Hp. destruct (rl_obj _ _ _ _ _ R i o p Ho Hp) as (X1 & X2 & _).
    rewrite (proj2 (getn_nth _ _ _ _) X1), (proj2 (getn_nth _ _ _ _) X2). reflexivity.
  - apply map_nth_eq; [apply R|]. intros i o p Ho Hp. apply getn_nth. eapply rl_own; eauto.
  - split; [apply R|split; [apply R|]]. apply Forall_forall. intros o Ho. apply In_nth_error in Ho. destruct Ho as (i & Ho).
    pose proof (rel_look _ _ _ _ _ i R) as LK. destruct (nth_error objs i); [|congruence].
    destruct LK as (x & X1 & (_ & _ & X2)). rewrite X1 in Ho. inversion Ho; subst. auto.
Qed.

(** * Proofs: one operation on a SortedSet object does what it does on a SortedSet value *)
From Coq Require Import Permutation.
From Verif Require Import PyBase Model Spec History Reach ListClass ClassSpec ModelSet SetSpec ModelObj ObjSpec.
Local Unset Implicit Arguments.

Lemma getn_nth : forall A (l : list A) i x, getn l i = Ok x <-> nth_error l i = Some x.
Proof. intros. unfold getn. destruct (nth_error l i); split; intro H; inversion H; reflexivity. Qed.
Lemma getn_none : forall A (l : list A) i, nth_error l i = None -> getn l i = Err IndexError.
Proof. intros. unfold getn. rewrite H. reflexivity. Qed.

Lemma setn_put : forall A (l : list A) i x, i < length l -> setn l i x = Ok (put l i x).
Proof.
  intros A l. induction l; intros i x H; simpl in H; [lia|]. destruct i; [reflexivity|].
  unfold setn in *. simpl. rewrite IHl by lia. reflexivity.
Qed.
Lemma put_self : forall A (l : list A) i x, nth_error l i = Some x -> put l i x = l.
Proof. intros A l. induction l; destruct i; simpl; intros x H; try discriminate; [congruence|]. rewrite IHl; auto. Qed.
Lemma put_length : forall A (l : list A) i x, length (put l i x) = length l.
Proof. intros A l. induction l; destruct i; simpl; intros; auto. Qed.
Lemma put_same : forall A (l : list A) i x, i < length l -> nth_error (put l i x) i = Some x.
Proof. intros A l. induction l; destruct i; simpl; intros x H; try lia; [reflexivity|]. apply IHl. lia. Qed.
Lemma put_other : forall A (l : list A) i j x, j <> i -> nth_error (put l i x) j = nth_error l j.
Proof. intros A l. induction l; destruct i, j; simpl; intros x H; try reflexivity; try congruence. apply IHl. congruence. Qed.
Lemma map_put : forall A B (f : A -> B) (l : list A) i x, map f (put l i x) = put (map f l) i (f x).
Proof. intros A B f l. induction l; destruct i; simpl; intros; try reflexivity. rewrite IHl. reflexivity. Qed.
Lemma nth_len : forall A (l : list A) i x, nth_error l i = Some x -> i < length l.
Proof. intros. apply nth_error_Some. congruence. Qed.

Section Obj.
  Context {S V K : Type}.
  Variable T : listcls S V K.
  Variable eqb : V -> V -> bool.
  Variable ord : nat -> list V -> list V.
  Notation H := (sheap S V * sobj)%type.
  Notation SS := (sset S V).

  Definition holds (h : sheap S V) (o : sobj) (m : list V) (l : S) : Prop :=
    nth_error (h_sets h) (o_set o) = Some m /\ nth_error (h_lists h) (o_list o) = Some l /\
    m_set o = o_set o /\ m_list o = o_list o.
  Definition rep (h : sheap S V) (o : sobj) (s : SS) : Prop :=
    holds h o (s_set s) (s_list s) /\ h_tick h = s_tick s.
  Definition keep (o : sobj) (h h' : sheap S V) : Prop :=
    length (h_sets h) <= length (h_sets h') /\ length (h_lists h) <= length (h_lists h') /\
    (forall r, r < length (h_sets h) -> r <> o_set o -> nth_error (h_sets h') r = nth_error (h_sets h) r) /\
    (forall r, r < length (h_lists h) -> r <> o_list o -> nth_error (h_lists h') r = nth_error (h_lists h) r).
  Definition grows (h h' : sheap S V) : Prop :=
    length (h_sets h) <= length (h_sets h') /\ length (h_lists h) <= length (h_lists h') /\
    (forall r, r < length (h_sets h) -> nth_error (h_sets h') r = nth_error (h_sets h) r) /\
    (forall r, r < length (h_lists h) -> nth_error (h_lists h') r = nth_error (h_lists h) r).

  Lemma keep_refl : forall o h, keep o h h.
  Proof. intros. repeat split; auto. Qed.
  Lemma keep_trans : forall o a b c, keep o a b -> keep o b c -> keep o a c.
  Proof.
    intros o a b c (A1 & A2 & A3 & A4) (B1 & B2 & B3 & B4). repeat split; try lia; intros.
    - rewrite B3 by (try lia; auto). apply A3; auto.
    - rewrite B4 by (try lia; auto). apply A4; auto.
  Qed.
  Lemma grows_refl : forall h, grows h h.
  Proof. intros. repeat split; auto. Qed.
  Lemma grows_trans : forall a b c, grows a b -> grows b c -> grows a c.
  Proof.
    intros a b c (A1 & A2 & A3 & A4) (B1 & B2 & B3 & B4). repeat split; try lia; intros.
    - rewrite B3 by lia. apply A3; auto.
    - rewrite B4 by lia. apply A4; auto.
  Qed.
  Lemma grows_keep : forall o a b, grows a b -> keep o a b.
  Proof. intros o a b (A1 & A2 & A3 & A4). repeat split; auto. Qed.
  Lemma keep_grows : forall o a b c,
    grows a b -> keep o b c -> length (h_sets a) <= o_set o -> length (h_lists a) <= o_list o -> grows a c.
  Proof.
    intros o a b c (A1 & A2 & A3 & A4) (B1 & B2 & B3 & B4) L1 L2. repeat split; try lia; intros.
    - rewrite B3 by lia. auto.
    - rewrite B4 by lia. auto.
  Qed.

  Definition Sim {A} (m : H -> A * H) (m' : SS -> A * SS) : Prop := forall h o s, rep h o s ->
    exists a h' s', m (h, o) = (a, (h', o)) /\ m' s = (a, s') /\ rep h' o s' /\ keep o h h'.

  Lemma sim_bind : forall A B (m : M H A) (m' : M SS A) (k : A -> M H B) k',
    Sim m m' -> (forall a, Sim (k a) (k' a)) -> Sim (bind m k) (bind m' k').
  Proof.
    intros A B m m' k k' Hm Hk h o s R. destruct (Hm h o s R) as (a & h1 & s1 & E1 & E2 & R1 & F1).
    unfold bind. rewrite E1, E2. destruct a as [a|e].
    - destruct (Hk a h1 o s1 R1) as (b & h2 & s2 & E3 & E4 & R2 & F2).
      exists b, h2, s2. rewrite E3, E4. repeat split; auto. all: try apply R2. all: apply (keep_trans o h h1 h2 F1 F2); auto.
    - exists (Err e), h1, s1. auto.
  Qed.
  Lemma sim_pure : forall A (r : res A), Sim (fun s => (r, s)) (fun s => (r, s)).
  Proof. intros A r h o s R. exists r, h, s. repeat split; auto; apply R. Qed.
  Lemma sim_ret : forall A (a : A), Sim (ret a) (ret a).
  Proof. intros. apply sim_pure. Qed.
  Lemma sim_raise : forall A e, Sim (@raise _ A e) (raise e).
  Proof. intros. apply sim_pure. Qed.
  Lemma sim_if : forall A (b : bool) (m1 m2 : H -> A * H) m1' m2', Sim m1 m1' -> Sim m2 m2' ->
    Sim (if b then m1 else m2) (if b then m1' else m2').
  Proof. intros. destruct b; auto. Qed.
  Lemma sim_members : Sim hmembers members.
  Proof.
    intros h o s R. exists (Ok (s_set s)), h, s. destruct R as ((R1 & R2) & R3).
    unfold hmembers, self, deref, bind, get, ret, liftr, members. simpl.
    apply getn_nth in R1. rewrite R1. repeat split; try apply keep_refl; auto; try tauto. apply getn_nth. auto.
  Qed.
  Lemma sim_put : forall x, Sim (hput x) (put_set x).
  Proof.
    intros x h o s R. destruct R as ((R1 & R2 & R3 & R4) & R5). pose proof (nth_len _ _ _ _ R1) as L.
    exists (Ok tt), (mksheap (put (h_sets h) (o_set o) x) (h_lists h) (h_tick h)), (mksset x (s_list s) (s_tick s)).
    split; [|split; [reflexivity|split]].
    - unfold hput, self, store, bind, get, ret, modifyR. simpl. rewrite setn_put by auto. reflexivity.
    - repeat split; simpl; auto. apply put_same. auto.
    - repeat split; simpl; auto. rewrite put_length; auto. intros. apply put_other. auto.
  Qed.
  Lemma sim_call : forall A (m : S -> A * S) dfl,
    Sim (fun s => call (o_list (snd s)) m dfl s) (fun s => let (a, l) := m (s_list s) in (a, mksset (s_set s) l (s_tick s))).
  Proof.
    intros A m dfl h o s R. destruct R as ((R1 & R2 & R3 & R4) & R5). pose proof (nth_len _ _ _ _ R2) as L.
    unfold call. simpl. rewrite (proj2 (getn_nth _ _ _ _) R2). destruct (m (s_list s)) as [a l] eqn:E.
    rewrite setn_put by auto.
    eexists a, _, _. split; [reflexivity|]. split; [reflexivity|]. split.
    - repeat split; simpl; auto. apply put_same. auto.
    - repeat split; simpl; auto. rewrite put_length; auto. intros. apply put_other. auto.
  Qed.
  Lemma sim_onlist : forall A (m : M S A), Sim (honlist m) (onlist m).
  Proof. intros A m. exact (sim_call _ m (@Err A)). Qed.
  Lemma sim_visit : forall x, Sim (hvisit ord x) (visit ord x).
  Proof.
    intros x h o s R. destruct R as ((R1 & R2 & R3 & R4) & R5).
    eexists _, _, _. split; [reflexivity|]. split.
    - unfold visit, bind, get, modify, ret. rewrite <- R5. reflexivity.
    - split; repeat split; simpl; auto.
  Qed.
  Lemma sim_forM : forall A (f : A -> M H unit) f' l, (forall a, Sim (f a) (f' a)) -> Sim (forM f l) (forM f' l).
  Proof. intros A f f' l Hf. induction l; simpl; [apply sim_ret|]. apply sim_bind; auto. Qed.
  Lemma sim_fwd : forall f, Sim (hs_fwd T f) (ss_fwd T f).
  Proof.
    intros f h o s R. destruct (sim_call _ (l_fwd T f) (@RExn V) h o s R) as (a & h' & s' & E1 & E2 & R').
    exists a, h', s'. split; [|split; auto].
    unfold hs_fwd. destruct R as ((_ & _ & _ & R4) & _). simpl in *. rewrite R4. exact E1.
  Qed.
  Lemma sim_bound : forall A (f : list V -> A), Sim (bound_set f) (m <- members ;; ret (f m)).
  Proof.
    intros A f h o s R. destruct (sim_bind _ _ _ _ (fun m => ret (f m)) _ sim_members (fun m => sim_ret _ (f m)) h o s R)
      as (a & h' & s' & E1 & E2 & R').
    exists a, h', s'. split; [|split; auto].
    rewrite <- E1. unfold bound_set, hmembers, self, bind, get, ret. simpl.
    destruct R as ((_ & _ & R3 & _) & _). rewrite R3. reflexivity.
  Qed.

  Ltac sim := repeat (first
    [ apply sim_ret | apply sim_raise | apply sim_members | apply sim_put | apply sim_onlist | apply sim_visit
    | apply sim_if | apply sim_forM; intro | apply sim_bind; [|intro] | apply sim_bound | apply sim_fwd ]).

  Lemma sim_add : forall v, Sim (hs_add T eqb v) (ss_add T eqb v).
  Proof. intros. unfold hs_add, ss_add. sim. Qed.
  Lemma sim_relist : Sim (hrelist T ord) (relist T ord).
  Proof. unfold hrelist, relist. sim. Qed.
  Lemma sim_update : forall its, Sim (hs_update T eqb ord its) (ss_update T eqb ord its).
  Proof. intros. unfold hs_update, ss_update. sim; auto using sim_relist, sim_add. Qed.
  Lemma sim_set_remove : forall v, Sim (hset_remove eqb v) (set_remove eqb v).
  Proof. intros. unfold hset_remove, set_remove. sim. Qed.
  Lemma sim_discard : forall v, Sim (hs_discard T eqb v) (ss_discard T eqb v).
  Proof. intros. unfold hs_discard, ss_discard. sim. Qed.

  Lemma sim_observe : forall A (inj : A -> out V) m m', Sim m m' -> Sim (observe inj m) (observe inj m').
  Proof.
    intros A inj m m' Hm h o s R. destruct (Hm h o s R) as (a & h1 & s1 & E1 & E2 & R1).
    unfold observe. rewrite E1, E2. destruct a; eexists _, _, _; (split; [reflexivity|split; [reflexivity|auto]]).
  Qed.

  (** New objects. *)
  Lemma attach_ok : forall h o m, nth_error (h_sets h) (o_set o) = Some m ->
    match ss_fromset T ord (h_tick h) m with
    | Ok s => s_set s = m /\ s_tick s = h_tick h + 1 /\
        hs_attach T ord true (h, o) =
          (Ok tt, (mksheap (h_sets h) (h_lists h ++ [s_list s]) (h_tick h + 1),
                   mksobj (o_set o) (length (h_lists h)) (o_set o) (length (h_lists h))))
    | Err e => hs_attach T ord true (h, o) = (Err e, (mksheap (h_sets h) (h_lists h) (h_tick h + 1), o))
    end.
  Proof.
    intros h o m E. apply getn_nth in E.
    unfold ss_fromset, hs_attach, hmembers, self, deref, hvisit, new_list, bind, get, ret, liftr, modify, rbind. simpl.
    rewrite E. simpl. destruct (l_new T (ord (h_tick h) m)); auto.
  Qed.

  Lemma rep_new : forall (h : sheap S V) r m l t, nth_error (h_sets h) r = Some m ->
    rep (mksheap (h_sets h) (h_lists h ++ [l]) t) (mksobj r (length (h_lists h)) r (length (h_lists h))) (mksset m l t).
  Proof.
    intros. repeat split; simpl; auto. rewrite nth_error_app2, Nat.sub_diag; auto.
  Qed.
  Lemma grows_list : forall (h : sheap S V) l t, grows h (mksheap (h_sets h) (h_lists h ++ l) t).
  Proof. intros. repeat split; simpl; auto; [rewrite app_length; lia|]. intros. apply nth_error_app1. auto. Qed.
  Lemma grows_set : forall (h : sheap S V) x t, grows h (mksheap (h_sets h ++ x) (h_lists h) t).
  Proof. intros. repeat split; simpl; auto; [rewrite app_length; lia|]. intros. apply nth_error_app1. auto. Qed.
  Lemma grows_tick : forall (h : sheap S V) t, grows h (mksheap (h_sets h) (h_lists h) t).
  Proof. intros. repeat split; simpl; auto. Qed.

  Definition born (h : sheap S V) (o : sobj) (want : res SS) (got : res sobj * H) : Prop :=
    match want with
    | Ok s => exists h' o', got = (Ok o', (h', o)) /\ rep h' o' s /\ grows h h' /\
        length (h_sets h) <= o_set o' /\ length (h_lists h) <= o_list o'
    | Err e => exists h', got = (Err e, (h', o)) /\ grows h h'
    end.

  Lemma fromset_ok : forall h o m, born h o (ss_fromset T ord (h_tick h) m) (hs_fromset T eqb ord m (h, o)).
  Proof.
    intros h o m. unfold hs_fromset, new_set, bind, get, modify, ret, construct. simpl fst. simpl snd.
    set (h1 := mksheap (h_sets h ++ [m]) (h_lists h) (h_tick h)).
    set (o1 := mksobj (length (h_sets h)) 0 0 0).
    assert (N : nth_error (h_sets h1) (o_set o1) = Some m) by (simpl; rewrite nth_error_app2, Nat.sub_diag; auto).
    pose proof (attach_ok h1 o1 m N) as A. simpl (h_tick h1) in A.
    destruct (ss_fromset T ord (h_tick h) m) as [s|e]; simpl.
    - destruct A as (A1 & A2 & A3). unfold bind. rewrite A3. simpl. eexists _, _. split; [reflexivity|].
      pose proof (rep_new h1 (length (h_sets h)) m (s_list s) (h_tick h + 1) N) as R.
      split; [|split; [|split; simpl; auto]].
      + destruct s; simpl in *. subst. exact R.
      + apply (grows_trans h h1); [apply grows_set|exact (grows_list h1 [s_list s] (h_tick h + 1))].
    - unfold bind. rewrite A. eexists. split; [reflexivity|].
      apply (grows_trans h h1); [apply grows_set|exact (grows_tick h1 (h_tick h + 1))].
  Qed.

  Lemma new_ok : forall h o it, born h o (ss_new T eqb ord (h_tick h) it) (construct T eqb ord None it (h, o)).
  Proof.
    intros h o it. unfold construct. simpl fst. simpl snd.
    set (h1 := mksheap (h_sets h ++ [[]]) (h_lists h) (h_tick h)).
    set (o1 := mksobj (length (h_sets h)) 0 0 0).
    assert (N : nth_error (h_sets h1) (o_set o1) = Some []) by (simpl; rewrite nth_error_app2, Nat.sub_diag; auto).
    assert (E : (hs_attach T ord false ;;; hs_fill T eqb ord it) (h, mksobj 0 0 0 0) =
                (hs_attach T ord true ;;; hs_fill T eqb ord it) (h1, o1)) by reflexivity.
    rewrite E. clear E. unfold bind at 1.
    pose proof (attach_ok h1 o1 [] N) as A. simpl (h_tick h1) in A.
    unfold ss_new. destruct (ss_fromset T ord (h_tick h) []) as [s|e]; simpl rbind.
    - destruct A as (A1 & A2 & A3). rewrite A3.
      pose proof (rep_new h1 (length (h_sets h)) [] (s_list s) (h_tick h + 1) N) as R.
      replace (mksset [] (s_list s) (h_tick h + 1)) with s in R by (destruct s; simpl in *; subst; reflexivity).
      assert (G : grows h (mksheap (h_sets h1) (h_lists h1 ++ [s_list s]) (h_tick h1 + 1)))
        by (apply (grows_trans h h1); [apply grows_set|apply grows_list]).
      destruct it as [a|]; simpl hs_fill.
      + destruct (sim_update [a] _ _ _ R) as (r & h2 & s2 & E1 & E2 & R2 & F2). simpl in E1.
        simpl. rewrite E1, E2. destruct r as [u|e]; simpl.
        * eexists _, _. split; [reflexivity|]. split; [exact R2|]. split; [|simpl; auto].
          eapply keep_grows; [exact G|exact F2|simpl; auto|simpl; auto].
        * eexists. split; [reflexivity|].
          eapply keep_grows; [exact G|exact F2|simpl; auto|simpl; auto].
      + eexists _, _. split; [reflexivity|]. split; [exact R|]. split; [exact G|simpl; auto].
    - rewrite A. eexists. split; [reflexivity|].
      apply (grows_trans h h1); [apply grows_set|exact (grows_tick h1 (h_tick h + 1))].
  Qed.

  (** One operation. *)
  Definition step_ok (h : sheap S V) (o : sobj) (mk : bool) (want : out V * SS) (got : (out V * option sobj) * H) : Prop :=
    let (r, s') := want in
    if mk then
      exists h', grows h h' /\
        ((exists o', got = ((RUnit, Some o'), (h', o)) /\ r = RUnit /\ rep h' o' s' /\
            length (h_sets h) <= o_set o' /\ length (h_lists h) <= o_list o') \/
         (exists e, got = ((RExn e, None), (h', o)) /\ r = RExn e))
    else exists h', got = ((r, None), (h', o)) /\ rep h' o s' /\ keep o h h'.

  Lemma gives_ok : forall A (inj : A -> out V) m m' h o s, Sim m m' -> rep h o s ->
    step_ok h o false (observe inj m' s) (gives inj m (h, o)).
  Proof.
    intros A inj m m' h o s Hm R. destruct (sim_observe A inj m m' Hm h o s R) as (a & h1 & s1 & E1 & E2 & R1 & F).
    unfold gives. rewrite E1, E2. simpl. exists h1. auto.
  Qed.
  Lemma made_ok : forall (m : M H sobj) (m' : M SS SS) h o s s1 want,
    m' s = (want, s1) -> born h o want (m (h, o)) -> step_ok h o true (rebind m' s) (made m (h, o)).
  Proof.
    intros m m' h o s s1 want E B. unfold rebind, made. rewrite E. destruct want as [x|e]; simpl in B.
    - destruct B as (h' & o' & E1 & R & G & L1 & L2). rewrite E1. simpl. exists h'. split; [auto|]. left. exists o'. auto.
    - destruct B as (h' & E1 & G). rewrite E1. simpl. exists h'. split; [auto|]. right. exists e. auto.
  Qed.

  Lemma iter_same : iter_reads T -> forall h o s, rep h o s ->
    honlist (l_iter T) (h, o) = (fst (l_iter T (s_list s)), (h, o)).
  Proof.
    intros I h o s ((R1 & R2 & _) & _). unfold honlist, self, call, bind, get, ret. simpl.
    rewrite (proj2 (getn_nth _ _ _ _) R2). specialize (I (s_list s)). destruct (l_iter T (s_list s)) as [a l]. simpl in *. subst l.
    rewrite setn_put by (eapply nth_len; eauto). rewrite put_self by auto. destruct h. reflexivity.
  Qed.

  Lemma members_run : forall h o s, rep h o s -> hmembers (h, o) = (Ok (s_set s), (h, o)).
  Proof.
    intros h o s ((R1 & _) & _). unfold hmembers, self, deref, bind, get, ret, liftr. simpl.
    rewrite (proj2 (getn_nth _ _ _ _) R1). reflexivity.
  Qed.

  Lemma do_ok : iter_reads T -> forall op h o s, rep h o s ->
    step_ok h o (makes op) (ss_step T eqb ord op s) (hs_do T eqb ord op (h, o)).
  Proof.
    intros I op h o s R.
    assert (FS : forall m m1 m', m (h, o) = hs_fromset T eqb ord m1 (h, o) ->
      m' s = (ss_fromset T ord (s_tick s) m1, s) -> step_ok h o true (rebind m' s) (made m (h, o))).
    { intros m m1 m' E1 E2. eapply made_ok; [exact E2|]. rewrite E1.
      replace (s_tick s) with (h_tick h) by apply R. apply fromset_ok. }
    destruct op; simpl makes; cbv iota; unfold ss_step, hs_do;
      try (apply gives_ok; [|exact R]; auto using sim_add, sim_update, sim_discard, sim_set_remove;
           try (unfold hs_remove, ss_remove, hs_pop, ss_pop, hs_clear, ss_clear, hs_contains, ss_contains, hs_count, ss_count,
             hs_len, ss_len, ss_iter, ss_reversed, ss_get, ss_slice, hs_del, ss_del, hs_del_slice, ss_del_slice,
             hs_difference_update, ss_difference_update, hs_intersection_update, ss_intersection_update,
             hs_symmetric_difference_update, ss_symmetric_difference_update, hs_compare, ss_compare,
             hs_isdisjoint, ss_isdisjoint, hs_issubset, ss_issubset, hs_issuperset, ss_issuperset; sim;
             auto using sim_set_remove, sim_relist, sim_discard; fail)).
    - (* union *)
      destruct (l_iter T (s_list s)) as [ol l1] eqn:EL.
      pose proof (iter_same I h o s R) as HI. rewrite EL in HI. simpl in HI.
      pose proof (I (s_list s)) as HS. rewrite EL in HS. simpl in HS. subst l1.
      assert (VL : onlist (l_iter T) s = (ol, s)).
      { unfold onlist, zoom. rewrite EL. destruct s; reflexivity. }
      destruct ol as [l|e].
      + eapply made_ok with (want := ss_new T eqb ord (s_tick s) (Some (AIter (l ++ concat (map (@items V) its))))).
        * unfold ss_union, bind, fresh, get, liftr. rewrite VL. reflexivity.
        * unfold hs_union. unfold bind. rewrite HI. replace (s_tick s) with (h_tick h) by apply R. apply new_ok.
      + eapply made_ok with (want := Err e).
        * unfold ss_union, bind. rewrite VL. reflexivity.
        * unfold hs_union, bind. rewrite HI. exists h. split; [reflexivity|apply grows_refl].
    - (* difference *) eapply FS; [unfold hs_difference, bind; rewrite (members_run h o s R); reflexivity|reflexivity].
    - eapply FS; [unfold hs_intersection, bind; rewrite (members_run h o s R); reflexivity|reflexivity].
    - eapply FS; [unfold hs_symmetric_difference, bind; rewrite (members_run h o s R); reflexivity|reflexivity].
    - eapply FS; [unfold hs_copy, bind; rewrite (members_run h o s R); reflexivity|reflexivity].
    - (* reduce *)
      eapply made_ok with (want := ss_new T eqb ord (s_tick s + 1) (Some (ASet (ord (s_tick s) (s_set s))))).
      + reflexivity.
      + unfold hs_reduce. unfold bind at 1. rewrite (members_run h o s R). unfold hvisit, bind, get, modify, ret.
        simpl fst. simpl snd.
        assert (ET : h_tick h = s_tick s) by apply R. rewrite <- ET.
        pose proof (new_ok (mksheap (h_sets h) (h_lists h) (h_tick h + 1)) o (Some (ASet (ord (h_tick h) (s_set s))))) as B.
        simpl (h_tick _) in B. unfold born in *.
        destruct (ss_new T eqb ord (h_tick h + 1) (Some (ASet (ord (h_tick h) (s_set s))))) as [x|e].
        * destruct B as (h' & o' & E1 & R' & G & L). exists h', o'. split; [exact E1|split; [exact R'|split; [|exact L]]].
          eapply grows_trans; [apply grows_tick|exact G].
        * destruct B as (h' & E1 & G). exists h'. split; [exact E1|]. eapply grows_trans; [apply grows_tick|exact G].
    - (* fwd *)
      destruct (sim_fwd f h o s R) as (a & h1 & s1 & E1 & E2 & R1 & F). rewrite E1, E2. exists h1. auto.
  Qed.
End Obj.

(** * Lemmas for the property theorems about [repr] of objects that contain one another *)
From Coq Require Import String Lia.
From Verif Require Import PyBase ModelRepr ReprSpec.
Local Unset Implicit Arguments.

Lemma sapp_assoc (a b c : string) : ((a ++ b) ++ c = a ++ (b ++ c))%string.
Proof. induction a as [|x a IH]; cbn; [reflexivity|rewrite IH; reflexivity]. Qed.
Lemma filter_length_le {A} (f : A -> bool) l : length (filter f l) <= length l.
Proof. induction l as [|x l IH]; cbn; [auto|]. destruct (f x); cbn; lia. Qed.

Section Rep.
  Variable h : list node.
  Hypothesis HH : heap_ok h.
  Definition fn_of (n : node) : option fn :=
    match n with
    | NSortedList _ _ => Some FSortedList
    | NSortedKeyList _ _ _ => Some FSortedKeyList
    | NSortedSet _ _ _ => Some FSortedSet
    | NSortedDict _ _ _ => Some FSortedDict
    | NView _ _ => None
    | NPyList _ | NPyDict _ => Some FPython
    end.
  (** The objects inside which we are, and what is running. *)
  Definition agrees (p : list nat) (g : running) : Prop := forall i n f, nth_error h i = Some n -> fn_of n = Some f -> In i p <-> In (f, i) g.
  Definition free (p : list nat) : nat := length (filter (fun i => negb (existsb (Nat.eqb i) p)) (seq 0 (length h))).
  Definition need (x : item) (p : list nat) : nat :=
    match x with
    | Ref i => match nth_error h i with Some (NView _ _) => 2 * free p + 2 | _ => 2 * free p + 1 end
    | _ => 1
    end.

  Lemma same_run_eq a b : same_run a b = true <-> a = b.
  Proof.
    destruct a as [f i], b as [g j]. unfold same_run. cbn. rewrite andb_true_iff, Nat.eqb_eq. split.
    - intros [H ->]. f_equal. destruct f, g; try discriminate H; reflexivity.
    - intros [= -> ->]. split; [destruct g; reflexivity|reflexivity].
  Qed.
  Lemma existsb_in p i : existsb (Nat.eqb i) p = true <-> In i p.
  Proof. rewrite existsb_exists. split; [intros (j & H & E); apply Nat.eqb_eq in E; subst; exact H|intros H; exists i; rewrite Nat.eqb_refl; auto]. Qed.
  Lemma need_le x p : need x p <= 2 * free p + 2.
  Proof. unfold need. destruct x as [t|i]; [lia|]. destruct (nth_error h i) as [[]|]; lia. Qed.
  Lemma filter_count (A : Type) (f g : A -> bool) l a : NoDup l -> In a l -> f a = false -> g a = true -> (forall x, f x = true -> g x = true) ->
    length (filter f l) < length (filter g l).
  Proof.
    intros HN Ha Hf Hg HI. induction l as [|x l IH]; [destruct Ha|]. inversion HN; subst. cbn [filter]. destruct Ha as [->|Ha].
    - rewrite Hf, Hg. cbn. assert (length (filter f l) <= length (filter g l)); [|lia]. clear -HI. induction l as [|y l IH]; [auto|]. cbn. specialize (HI y).
      destruct (f y); [rewrite HI by reflexivity; cbn; lia|]. destruct (g y); cbn; lia.
    - specialize (IH H2 Ha). specialize (HI x). destruct (f x); [rewrite HI by reflexivity; cbn; lia|]. destruct (g x); cbn; lia.
  Qed.
  Lemma free_less i p : i < length h -> ~ In i p -> free (i :: p) < free p.
  Proof.
    intros Hi Hp. apply (filter_count nat _ _ _ i).
    - apply seq_NoDup.
    - apply in_seq. lia.
    - cbn. rewrite Nat.eqb_refl. reflexivity.
    - destruct (existsb (Nat.eqb i) p) eqn:E; [apply existsb_in in E; tauto|reflexivity].
    - intros x. cbn. destruct (Nat.eqb x i); cbn; [discriminate|auto].
  Qed.
  Lemma agrees_in i n f p g : agrees p g -> nth_error h i = Some n -> fn_of n = Some f -> agrees (i :: p) ((f, i) :: g).
  Proof.
    intros HA Hn Hf j m f' Hm Hf'. specialize (HA j m f' Hm Hf'). cbn. split.
    - intros [->|H]; [left|right; apply HA, H]. rewrite Hn in Hm. injection Hm as <-. congruence.
    - intros [[= -> ->]|H]; [left; reflexivity|right; apply HA, H].
  Qed.

  Definition good (p : list nat) (x : item) (m : R string) (g : running) : Prop :=
    exists r, m g = Some (r, g) /\ match r with Ok t => shows h p x t | Err e => raises h x e end.
  Lemma each_good p g vs m : (forall x, In x vs -> good p x (m x) g) ->
    (exists ts, each m vs g = Some (Ok ts, g) /\ Forall2 (shows h p) vs ts) \/ (exists e x, each m vs g = Some (Err e, g) /\ In x vs /\ raises h x e).
  Proof.
    induction vs as [|x vs IH]; intros H; cbn.
    - left. exists []. split; [reflexivity|constructor].
    - destruct (H x (or_introl eq_refl)) as ([t|e] & E & Hx); unfold rthen; rewrite E; [|right; exists e, x; auto].
      destruct IH as [(ts & E' & Ht)|(e & y & E' & Hy & Hr)]; [intros y Hy; apply H; right; exact Hy|..]; rewrite E'; [left|right].
      + eexists. split; [reflexivity|]. constructor; assumption.
      + exists e, y. auto.
  Qed.
  Lemma pairs_good p g kvs m : (forall x, In x (flat_map (fun p => [fst p; snd p]) kvs) -> good p x (m x) g) ->
    forall f, f = (fun q : item * item => rthen (m (fst q)) (fun k => rthen (m (snd q)) (fun v => rret (k ++ ": " ++ v)%string))) ->
    (exists ts, each f kvs g = Some (Ok ts, g) /\ Forall2 (shows_pair h p) kvs ts) \/
    (exists e x, each f kvs g = Some (Err e, g) /\ In x (flat_map (fun p => [fst p; snd p]) kvs) /\ raises h x e).
  Proof.
    intros H0 f Hf. revert H0. induction kvs as [|[k v] kvs IH]; intros H; cbn.
    - left. exists []. split; [reflexivity|constructor].
    - cbn in H. destruct (H k (or_introl eq_refl)) as ([t|e] & E & Hx).
      2: { right. exists e, k. assert (Ef : f (k, v) g = Some (Err e, g)) by (rewrite Hf; unfold rthen; cbn; rewrite E; reflexivity). unfold rthen at 1. rewrite Ef. auto. }
      destruct (H v (or_intror (or_introl eq_refl))) as ([t'|e] & E2 & Hv).
      2: { right. exists e, v. assert (Ef : f (k, v) g = Some (Err e, g)) by (rewrite Hf; unfold rthen; cbn; rewrite E, E2; reflexivity). unfold rthen at 1. rewrite Ef. auto. }
      assert (Ef : f (k, v) g = Some (Ok (t ++ ": " ++ t')%string, g)) by (rewrite Hf; unfold rthen; cbn; rewrite E, E2; reflexivity).
      unfold rthen. rewrite Ef.
      destruct IH as [(ts & E' & Ht)|(e & y & E' & Hy & Hr)]; [intros y Hy; apply H; right; right; exact Hy|..]; rewrite E'; [left|right].
      + eexists. split; [reflexivity|]. constructor; [constructor; assumption|assumption].
      + exists e, y. auto.
  Qed.
  (** The decorator: the text of an object, given that of its contents. *)
  Lemma guard_good i n f p g (body : R string) ds : ds = dots n -> agrees p g -> nth_error h i = Some n -> fn_of n = Some f ->
    (~ In i p -> exists r, body ((f, i) :: g) = Some (r, (f, i) :: g) /\ match r with Ok t => shows h p (Ref i) t | Err e => raises h (Ref i) e end) ->
    good p (Ref i) (guarded f i ds body) g.
  Proof.
    intros -> HA Hn Hf HB. unfold good, guarded. destruct (existsb (same_run (f, i)) g) eqn:E.
    - exists (Ok (dots n)). split; [reflexivity|]. apply existsb_exists in E as (x & Hx & E). apply same_run_eq in E. subst.
      apply sh_inside; [exact Hn|intros name d ->; discriminate Hf|]. apply (HA i n f Hn Hf), Hx.
    - assert (Hg : ~ In (f, i) g). { intros H. enough (existsb (same_run (f, i)) g = true) by congruence. apply existsb_exists. exists (f, i). split; [exact H|apply same_run_eq; reflexivity]. }
      destruct HB as (r & -> & Hr); [intros H; apply Hg, (HA i n f Hn Hf), H|]. exists r. split; [|exact Hr].
      cbn [filter]. replace (same_run (f, i) (f, i)) with true by (symmetry; apply same_run_eq; reflexivity). cbn [negb].
      assert (Eg : filter (fun x => negb (same_run (f, i) x)) g = g); [|rewrite Eg; reflexivity].
      clear -Hg. induction g as [|x g IH]; [reflexivity|]. cbn. destruct (same_run (f, i) x) eqn:E; cbn.
      + apply same_run_eq in E. subst. destruct Hg. left. reflexivity.
      + f_equal. apply IH. intros H. apply Hg. right. exact H.
  Qed.
  Lemma rep_ok fuel : forall x p g, agrees p g -> item_ok h x -> need x p <= fuel -> good p x (rep h fuel x) g.
  Proof.
    induction fuel as [|fuel IH]; intros x p g HA Hx Hf.
    - exfalso. unfold need in Hf. destruct x as [t|i]; [lia|]. destruct (nth_error h i) as [[]|]; lia.
    - destruct x as [t|i].
      + exists t. split; [reflexivity|]. destruct t; constructor.
      + cbn in Hx. destruct (nth_error h i) as [n|] eqn:En; [|apply nth_error_None in En; lia].
        assert (Hin : In n h) by (eapply nth_error_In; exact En). destruct (HH n Hin) as [Hc Hv]. rewrite Forall_forall in Hc.
        assert (HI : forall f, fn_of n = Some f -> ~ In i p -> forall y, In y (inside n) -> good (i :: p) y (rep h fuel y) ((f, i) :: g)).
        { intros f Hn Hp y Hy. apply IH; [eapply agrees_in; eauto|apply Hc, Hy|]. pose proof (need_le y (i :: p)). pose proof (free_less i p Hx Hp).
          unfold need in Hf. rewrite En in Hf. destruct n; lia. }
        assert (HR : forall y e, In y (inside n) -> raises h y e -> raises h (Ref i) e) by (intros; econstructor; eassumption).
        cbn [rep]. rewrite En.
        set (F := fun q : item * item => rthen (rep h fuel (fst q)) (fun k => rthen (rep h fuel (snd q)) (fun v => rret (k ++ ": " ++ v)%string))).
        destruct n as [name vs|name vs key|name vs key|name key kvs|name d|vs|kvs].
        * eapply guard_good; [|exact HA|exact En|reflexivity|]; [reflexivity|]. intros Hp. unfold rthen.
          destruct (each_good _ _ vs (rep h fuel) (HI _ eq_refl Hp)) as [(ts & -> & Ht)|(e & y & -> & Hy & Hr)]; cbn; (eexists; split; [reflexivity|]); [|eapply HR; [exact Hy|exact Hr]].
          apply (@sh_list h p i name vs ts); assumption.
        * eapply guard_good; [|exact HA|exact En|reflexivity|]; [reflexivity|]. intros Hp. unfold rthen. pose proof (HI _ eq_refl Hp) as HG. cbn [inside] in HG, HR.
          destruct (each_good _ _ vs (rep h fuel) (fun y Hy => HG y (or_intror Hy))) as [(ts & -> & Ht)|(e & y & -> & Hy & Hr)]; cbn;
            [|eexists; split; [reflexivity|]; eapply HR; [right; exact Hy|exact Hr]].
          destruct (HG key (or_introl eq_refl)) as ([k|e] & -> & Hk); (eexists; split; [reflexivity|]); [|eapply HR; [left; reflexivity|exact Hk]].
          apply (@sh_key_list h p i name vs key ts k); assumption.
        * eapply guard_good; [|exact HA|exact En|reflexivity|]; [reflexivity|]. intros Hp. unfold rthen. pose proof (HI _ eq_refl Hp) as HG. destruct key as [key|]; cbn [inside] in HG, HR.
          -- destruct (HG key (or_introl eq_refl)) as ([k|e] & -> & Hk); [|eexists; split; [reflexivity|]; eapply HR; [left; reflexivity|exact Hk]]. cbn.
             destruct (each_good _ _ vs (rep h fuel) (fun y Hy => HG y (or_intror Hy))) as [(ts & -> & Ht)|(e & y & -> & Hy & Hr)]; cbn;
               [|eexists; split; [reflexivity|]; eapply HR; [right; exact Hy|exact Hr]].
             eexists; split; [reflexivity|]. apply (@sh_set_key h p i name vs key ts k); assumption.
          -- cbn. destruct (each_good _ _ vs (rep h fuel) HG) as [(ts & -> & Ht)|(e & y & -> & Hy & Hr)]; cbn; (eexists; split; [reflexivity|]); [|eapply HR; [exact Hy|exact Hr]].
             apply (@sh_set h p i name vs ts); assumption.
        * eapply guard_good; [|exact HA|exact En|reflexivity|]; [reflexivity|]. intros Hp. unfold rthen. pose proof (HI _ eq_refl Hp) as HG. destruct key as [key|]; cbn [inside] in HG, HR.
          -- destruct (HG key (or_introl eq_refl)) as ([k|e] & -> & Hk); [|eexists; split; [reflexivity|]; eapply HR; [left; reflexivity|exact Hk]]. cbn.
             destruct (pairs_good _ _ kvs (rep h fuel) (fun y Hy => HG y (or_intror Hy)) F eq_refl) as [(ts & -> & Ht)|(e & y & -> & Hy & Hr)]; cbn;
               [|eexists; split; [reflexivity|]; eapply HR; [right; exact Hy|exact Hr]].
             eexists; split; [reflexivity|].
             cbv beta iota. match goal with |- shows _ _ _ ?T => replace T with (name ++ "(" ++ k ++ ", " ++ between "{" ts "}" ++ ")")%string
               by (unfold between; cbn; rewrite !sapp_assoc; reflexivity) end.
             apply (@sh_dict_key h p i name key kvs ts k); assumption.
          -- cbn. destruct (pairs_good _ _ kvs (rep h fuel) HG F eq_refl) as [(ts & -> & Ht)|(e & y & -> & Hy & Hr)]; cbn; (eexists; split; [reflexivity|]); [|eapply HR; [exact Hy|exact Hr]].
             cbv beta iota. match goal with |- shows _ _ _ ?T => replace T with (name ++ "(" ++ between "{" ts "}" ++ ")")%string
               by (unfold between; cbn; rewrite !sapp_assoc; reflexivity) end.
             apply (@sh_dict h p i name kvs ts); assumption.
        * destruct Hv as (name' & k & kvs & Ed). assert (Hd : d < length h) by (apply nth_error_Some; congruence).
          destruct (IH (Ref d) p g HA Hd) as (r & E & Hr); [unfold need in *; rewrite Ed; rewrite En in Hf; lia|].
          unfold good, rthen. rewrite E. destruct r as [t|e]; (eexists; split; [reflexivity|]); [|eapply HR; [left; reflexivity|exact Hr]].
          eapply sh_view; eassumption.
        * eapply guard_good; [|exact HA|exact En|reflexivity|]; [reflexivity|]. intros Hp. unfold rthen.
          destruct (each_good _ _ vs (rep h fuel) (HI _ eq_refl Hp)) as [(ts & -> & Ht)|(e & y & -> & Hy & Hr)]; cbn; (eexists; split; [reflexivity|]); [|eapply HR; [exact Hy|exact Hr]].
          apply (@sh_py_list h p i vs ts); assumption.
        * eapply guard_good; [|exact HA|exact En|reflexivity|]; [reflexivity|]. intros Hp. unfold rthen.
          destruct (pairs_good _ _ kvs (rep h fuel) (HI _ eq_refl Hp) F eq_refl) as [(ts & -> & Ht)|(e & y & -> & Hy & Hr)]; cbn; (eexists; split; [reflexivity|]); [|eapply HR; [exact Hy|exact Hr]].
          apply (@sh_py_dict h p i kvs ts); assumption.
  Qed.
End Rep.

(** [2 * length h + 2]: no deeper nesting of calls. *)
Lemma c97_repr : forall (h : list node) (x : item) (fuel : nat), heap_ok h -> item_ok h x -> 2 * length h + 2 <= fuel ->
  exists r, rep h fuel x [] = Some (r, []) /\ match r with Ok t => shows h [] x t | Err e => raises h x e end.
Proof.
  intros h x fuel HH Hx Hf. apply (rep_ok h HH fuel x [] []); [intros i n f _ _; cbn; tauto|exact Hx|].
  pose proof (need_le h x []). enough (free h [] <= length h) by lia. unfold free. etransitivity; [apply filter_length_le|]. rewrite seq_length. auto.
Qed.

Section Unique.
Variable h : list node.
Local Ltac same := match goal with A : nth_error h ?i = Some ?x, B : nth_error h ?i = Some ?y |- _ => rewrite A in B; (discriminate B || (injection B as ?; subst)) end.
Lemma shows_fun : forall p x t, shows h p x t -> forall t', shows h p x t' -> t = t'.
Proof.
  fix IH 4. intros p x t H.
  destruct H as [p t|p i n Hn Hv Hi|p i name vs ts Hn Hi Hf|p i name vs key ts k Hn Hi Hf Hk|p i name vs ts Hn Hi Hf|p i name vs key ts k Hn Hi Hf Hk|p i name kvs ts Hn Hi Hf
    |p i name key kvs ts k Hn Hi Hf Hk|p i name d t Hn Ht|p i vs ts Hn Hi Hf|p i kvs ts Hn Hi Hf]; intros t' H'.
  1: inversion H'; reflexivity.
  1: { inversion H'; subst; same; try tauto; try reflexivity. destruct (Hv _ _ eq_refl). }
  7: { inversion H'; subst; same; [match goal with A : forall _ _, NView _ _ <> _ |- _ => destruct (A _ _ eq_refl) end|]. rewrite (IH _ _ _ Ht _ ltac:(eassumption)). reflexivity. }
  all: inversion H'; subst; same; try tauto.
  all: try (rewrite (IH _ _ _ Hk _ ltac:(eassumption))).
  all: match goal with |- ?L = ?R => match L with context [between _ ?a _] => match R with context [between _ ?b _] =>
    enough (Eab : a = b) by (rewrite Eab; reflexivity) end end end.
  all: match goal with A : Forall2 _ ?v ?a, B : Forall2 _ ?v ?b |- ?a = ?b => clear - IH A B; revert B; revert A; revert v a b end.
  1-4, 7: fix IH2 4; intros v1 a1 b1 [|x t v2 a2 Hx Hs] B1; inversion B1; subst; [reflexivity|]; f_equal;
        [apply (IH _ _ _ Hx); assumption|apply (IH2 _ _ _ Hs); assumption].
  all: fix IH2 4; intros v1 a1 b1 [|x t v2 a2 Hx Hs] B1; inversion B1; subst; [reflexivity|]; f_equal;
        [clear IH2 Hs; destruct Hx as [q k w c d Ha Hb]; match goal with C : shows_pair _ _ _ _ |- _ => inversion C; subst end;
          f_equal; [apply (IH _ _ _ Ha); assumption|f_equal; apply (IH _ _ _ Hb); assumption]
        |apply (IH2 _ _ _ Hs); assumption].
Qed.
End Unique.

Lemma c97_text_unique : forall (h : list node) (x : item) (t t' : string), shows h [] x t -> shows h [] x t' -> t = t'.
Proof. intros h x t t' H H'. exact (shows_fun h [] x t H t' H'). Qed.

Definition knot : list node :=
  [NSortedDict "SortedDict" None [(Atom (Ok "1"%string), Ref 1); (Atom (Ok "2"%string), Ref 2); (Atom (Ok "3"%string), Ref 3)];
   NSortedList "SortedList" [Ref 0; Ref 3];
   NView "SortedKeysView" 0;
   NPyList [Ref 3; Atom (Ok "7"%string)];
   NSortedKeyList "SortedKeyList" [Ref 4; Ref 0; Atom (Err ValueError)] (Atom (Ok "neg"%string))].
Lemma knot_ok : heap_ok knot.
Proof.
  intros n H. cbn in H. repeat (destruct H as [<-|H]; [split; [repeat constructor|]|]); try exact I; try destruct H.
  eexists _, _, _. reflexivity.
Qed.

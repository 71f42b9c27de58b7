(** * Lemmas: hash tables whose lookups may raise *)
From Coq Require Import Lia Permutation.
From Verif Require Import PyBase Model Spec History ListClass ModelSet ModelDict ModelHash RaiseSpec.
Local Unset Implicit Arguments.

Section Lookup.
  Context {V : Type}.
  Variable hash : V -> res Z.
  Variable heq : V -> V -> res bool.
  Variable probe : list V -> Z -> list V.
  Hypothesis HC : coherent_hash hash heq.
  Hypothesis HL : layout probe.
  Notation h_mem := (h_mem hash heq probe).
  Notation eqb := (heqb heq).

  Lemma scan_true v l : scan heq v l = Ok true -> exists x, In x l /\ heq x v = Ok true.
  Proof.
    induction l as [|x l IH]; [discriminate|]. cbn. destruct (heq x v) as [[|]|e] eqn:E; cbn; [|intros H; destruct (IH H) as (y & Hy & Ey)|discriminate].
    - intros _. exists x. auto.
    - exists y. auto.
  Qed.
  Lemma scan_false v l : scan heq v l = Ok false -> forall x, In x l -> heq x v = Ok false.
  Proof.
    induction l as [|x l IH]; [intros _ x []|]. cbn. destruct (heq x v) as [[|]|e] eqn:E; cbn; try discriminate. intros H y [<-|Hy]; auto.
  Qed.
  Lemma scan_all v l x : In x l -> heq x v = Ok true -> (forall y, In y l -> exists b, heq y v = Ok b) -> scan heq v l = Ok true.
  Proof.
    induction l as [|y l IH]; [intros []|]. intros Hx E H. cbn. destruct (H y (or_introl Logic.eq_refl)) as [[|] Eb]; rewrite Eb; cbn; [reflexivity|].
    destruct Hx as [Hx|Hx]; [subst; congruence|]. apply IH; auto. intros; apply H; right; assumption.
  Qed.
  Lemma h_mem_ok v m b : h_mem v m = Ok b -> set_mem eqb v m = b.
  Proof.
    unfold ModelHash.h_mem. destruct (hash v) as [h|e] eqn:Eh; cbn [rbind]; [|discriminate]. destruct b; intros H.
    - apply scan_true in H as (x & Hx & E). apply filter_In in Hx as [Hx _]. apply (Permutation_in _ (HL m h)) in Hx.
      unfold set_mem. apply existsb_exists. exists x. split; [exact Hx|]. unfold heqb, yes. rewrite E. reflexivity.
    - unfold set_mem. destruct (existsb (fun y => eqb y v) m) eqn:E; [|reflexivity]. apply existsb_exists in E as (x & Hx & E).
      unfold heqb, yes in E. destruct (heq x v) as [[|]|] eqn:E1; try discriminate. destruct (HC x v E1) as (g & Hg & Hg'). rewrite Eh in Hg'. injection Hg' as ->.
      rewrite (scan_false v _ H x) in E1; [discriminate|]. apply filter_In. split; [apply (Permutation_in _ (Permutation_sym (HL m g))), Hx|].
      unfold hashed. rewrite Hg. apply Z.eqb_refl.
  Qed.

  (** *** set *)
  Notation tm := (t_mem hash heq probe).
  Lemma t_mem_ok v m : forall b m', tm v m = (Ok b, m') -> m' = m /\ set_mem eqb v m = b.
  Proof.
    unfold t_mem, bind, get, liftr. intros b m' E. destruct (h_mem v m) as [b0|e] eqn:E0; [|discriminate]. injection E as <- <-.
    split; [reflexivity|]. apply h_mem_ok, E0.
  Qed.
  Lemma t_mem_err v m e m' : tm v m = (Err e, m') -> m' = m.
  Proof. unfold t_mem, bind, get, liftr. destruct (h_mem v m); congruence. Qed.
  Lemma t_mem_mem v m : tm v m = (h_mem v m, m).
  Proof. reflexivity. Qed.
  Lemma t_add_ok v m m' : t_add hash heq probe v m = (Ok tt, m') -> m' = set_add eqb v m.
  Proof.
    unfold t_add, bind. rewrite t_mem_mem. destruct (h_mem v m) as [b|e] eqn:E; [|discriminate]. apply h_mem_ok in E. unfold set_add. rewrite E.
    destruct b; intros H; injection H as <-; reflexivity.
  Qed.
  Lemma t_drop_del v m : t_drop heq v m = set_del eqb v m.
  Proof. reflexivity. Qed.
  Lemma set_del_absent v m : set_mem eqb v m = false -> set_del eqb v m = m.
  Proof.
    unfold set_mem, set_del. induction m as [|x m IH]; [reflexivity|]. cbn. destruct (eqb x v); cbn; [discriminate|]. intros H. f_equal. apply IH, H.
  Qed.
  Lemma t_discard_ok v m m' : t_discard hash heq probe v m = (Ok tt, m') -> m' = set_del eqb v m.
  Proof.
    unfold t_discard, bind. rewrite t_mem_mem. destruct (h_mem v m) as [b|e] eqn:E; [|discriminate]. apply h_mem_ok in E.
    destruct b; intros H; injection H as <-; [reflexivity|]. symmetry. apply set_del_absent, E.
  Qed.
  Lemma t_toggle_ok v m m' : t_toggle hash heq probe v m = (Ok tt, m') -> m' = set_toggle eqb m v.
  Proof.
    unfold t_toggle, bind. rewrite t_mem_mem. destruct (h_mem v m) as [b|e] eqn:E; [|discriminate]. apply h_mem_ok in E. unfold set_toggle. rewrite E.
    destruct b; intros H; injection H as <-; reflexivity.
  Qed.
  Lemma each_ok {X Y} (f : X -> M Y unit) (g : Y -> X -> Y) : (forall x m m', f x m = (Ok tt, m') -> m' = g m x) ->
    forall l m m', forM f l m = (Ok tt, m') -> m' = fold_left g l m.
  Proof.
    intros H. induction l as [|x l IH]; intros m m' E; [injection E as <-; reflexivity|]. cbn [forM] in E. unfold bind in E.
    destruct (f x m) as [[[]|e] m1] eqn:E1; [|discriminate]. apply H in E1. subst. cbn [fold_left]. apply IH, E.
  Qed.
  Lemma t_of_ok l m : t_of hash heq probe l = Ok m -> m = set_of eqb l.
  Proof.
    unfold t_of. destruct (forM _ l []) as [[[]|e] m1] eqn:E; [|discriminate]. intros H. injection H as <-.
    exact (each_ok _ (fun s x => set_add eqb x s) t_add_ok l [] m1 E).
  Qed.
End Lookup.

(** ** Operations that succeed *)
(** [m'] does what [m] does where [m] succeeds. *)
Definition follows {S A} (m m' : M S A) : Prop := forall s x s', m s = (Ok x, s') -> m' s = (Ok x, s').
Lemma follows_refl {S A} (m : M S A) : follows m m.
Proof. intros s x s' E. exact E. Qed.
Lemma follows_bind {S A B} (m m' : M S A) (f f' : A -> M S B) : follows m m' -> (forall x, follows (f x) (f' x)) -> follows (bind m f) (bind m' f').
Proof.
  intros H H' s y s' E. unfold bind in *. destruct (m s) as [[x|e] s1] eqn:E1; [|discriminate]. rewrite (H _ _ _ E1). apply H', E.
Qed.
Lemma follows_forM {S A} (f f' : A -> M S unit) l : (forall x, follows (f x) (f' x)) -> follows (forM f l) (forM f' l).
Proof. intros H. induction l as [|x l IH]; [apply follows_refl|]. cbn [forM]. apply follows_bind; [apply H|]. intros _. exact IH. Qed.
Lemma follows_gives {S A X} (f : A -> X) (m m' : M S A) : follows m m' -> follows (gives f m) (gives f m').
Proof. intros H. apply follows_bind; [exact H|]. intros x. apply follows_refl. Qed.

(** ** SortedSet *)
Section Sets.
  Context {V S K : Type}.
  Variable hash : V -> res Z.
  Variable heq : V -> V -> res bool.
  Variable probe : list V -> Z -> list V.
  Hypothesis HC : coherent_hash hash heq.
  Hypothesis HL : layout probe.
  Variable T : listcls S V K.
  Variable ord : nat -> list V -> list V.
  Notation h_mem := (h_mem hash heq probe).
  Notation eqb := (heqb heq).
  Notation SS := (sset S V).

  Lemma onset_mem v (s : SS) : onset (t_mem hash heq probe v) s = (h_mem v (s_set s), s).
  Proof. destruct s. reflexivity. Qed.
  Lemma onset_remove v b (s : SS) : h_mem v (s_set s) = Ok b -> onset (t_remove hash heq probe v) s = set_remove eqb v s.
  Proof.
    intros E. destruct s as [m x t]. cbn [s_set] in E. unfold onset, zoom, t_remove, bind. cbn [s_set s_list s_tick]. rewrite t_mem_mem, E. apply (h_mem_ok hash heq probe HC HL) in E.
    unfold set_remove, members, bind, get, ret. cbn [s_set]. rewrite E. destruct b; reflexivity.
  Qed.
  Lemma onset_add v b (s : SS) : h_mem v (s_set s) = Ok b -> onset (t_add hash heq probe v) s = put_set (set_add eqb v (s_set s)) s.
  Proof.
    intros E. destruct s as [m x t]. cbn [s_set] in E. unfold onset, zoom, t_add, bind. cbn [s_set s_list s_tick]. rewrite t_mem_mem, E. apply (h_mem_ok hash heq probe HC HL) in E.
    unfold put_set, modify, set_add. cbn [s_set s_list s_tick]. rewrite E. destruct b; reflexivity.
  Qed.
  Lemma hs_contains_ok v b (s : SS) : h_mem v (s_set s) = Ok b -> hs_contains hash heq probe v s = ss_contains eqb v s.
  Proof. intros E. unfold hs_contains. rewrite onset_mem, E. apply (h_mem_ok hash heq probe HC HL) in E. unfold ss_contains, members, bind, get, ret. rewrite E. reflexivity. Qed.
  Lemma hs_count_ok v b (s : SS) : h_mem v (s_set s) = Ok b -> hs_count hash heq probe v s = ss_count eqb v s.
  Proof. intros E. unfold hs_count, bind at 1. rewrite onset_mem, E. apply (h_mem_ok hash heq probe HC HL) in E. unfold ss_count, members, bind, get, ret. rewrite E. reflexivity. Qed.
  Lemma hs_add_ok v b (s : SS) : h_mem v (s_set s) = Ok b -> hs_add hash heq probe T v s = ss_add T eqb v s.
  Proof.
    intros E. pose proof (h_mem_ok hash heq probe HC HL _ _ _ E) as E'. unfold hs_add, ss_add, members, bind, get, ret. rewrite onset_mem, E, E'.
    destruct b; [|]; try reflexivity; rewrite (onset_add v _ s E); reflexivity.
  Qed.
  Lemma hs_discard_ok v b (s : SS) : h_mem v (s_set s) = Ok b -> hs_discard hash heq probe T v s = ss_discard T eqb v s.
  Proof.
    intros E. pose proof (h_mem_ok hash heq probe HC HL _ _ _ E) as E'. unfold hs_discard, ss_discard, members, bind, get, ret. rewrite onset_mem, E, E'.
    destruct b; [|]; try reflexivity; rewrite (onset_remove v _ s E); reflexivity.
  Qed.
  Lemma hs_remove_ok v b (s : SS) : h_mem v (s_set s) = Ok b -> hs_remove hash heq probe T v s = ss_remove T eqb v s.
  Proof. intros E. unfold hs_remove, ss_remove, bind. rewrite (onset_remove v b s E). reflexivity. Qed.
  Lemma raised_first {A} (m m' : M SS A) v : (forall b s, h_mem v (s_set s) = Ok b -> m s = m' s) ->
    (forall e s, h_mem v (s_set s) = Err e -> m s = (Err e, s)) -> follows m m'.
  Proof. intros H H' s x s' E. destruct (h_mem v (s_set s)) as [b|e] eqn:E0; [rewrite <- (H b s E0); exact E|rewrite (H' e s E0) in E; discriminate]. Qed.
  Lemma hs_contains_err v e (s : SS) : h_mem v (s_set s) = Err e -> hs_contains hash heq probe v s = (Err e, s).
  Proof. intros E. unfold hs_contains. rewrite onset_mem, E. reflexivity. Qed.
  Lemma hs_count_err v e (s : SS) : h_mem v (s_set s) = Err e -> hs_count hash heq probe v s = (Err e, s).
  Proof. intros E. unfold hs_count, bind. rewrite onset_mem, E. reflexivity. Qed.
  Lemma hs_add_err v e (s : SS) : h_mem v (s_set s) = Err e -> hs_add hash heq probe T v s = (Err e, s).
  Proof. intros E. unfold hs_add, bind. rewrite onset_mem, E. reflexivity. Qed.
  Lemma hs_discard_err v e (s : SS) : h_mem v (s_set s) = Err e -> hs_discard hash heq probe T v s = (Err e, s).
  Proof. intros E. unfold hs_discard, bind. rewrite onset_mem, E. reflexivity. Qed.
  Lemma onset_remove_err v e (s : SS) : h_mem v (s_set s) = Err e -> onset (t_remove hash heq probe v) s = (Err e, s).
  Proof. intros E. destruct s as [m x t]. cbn [s_set] in E. unfold onset, zoom, t_remove, bind. cbn [s_set s_list s_tick]. rewrite t_mem_mem, E. reflexivity. Qed.
  Lemma hs_remove_err v e (s : SS) : h_mem v (s_set s) = Err e -> hs_remove hash heq probe T v s = (Err e, s).
  Proof. intros E. unfold hs_remove, bind. rewrite (onset_remove_err v e s E). reflexivity. Qed.
  Lemma remove_follows v : follows (onset (t_remove hash heq probe v)) (set_remove (S:=S) eqb v).
  Proof. apply (raised_first _ _ v); [apply onset_remove|apply onset_remove_err]. Qed.
  Lemma add_follows v : follows (hs_add hash heq probe T v) (ss_add T eqb v).
  Proof. apply (raised_first _ _ v); [apply hs_add_ok|apply hs_add_err]. Qed.
  Lemma discard_follows v : follows (hs_discard hash heq probe T v) (ss_discard T eqb v).
  Proof. apply (raised_first _ _ v); [apply hs_discard_ok|apply hs_discard_err]. Qed.
  Lemma each_follows (f : V -> M (list V) unit) g l (k : M SS unit) : (forall x m m', f x m = (Ok tt, m') -> m' = g m x) ->
    forall s x s', bind (onset (forM f l)) (fun _ => k) s = (Ok x, s') -> bind (put_set (fold_left g l (s_set s))) (fun _ => k) s = (Ok x, s').
  Proof.
    intros H s x s' E. unfold bind, onset, zoom in E. destruct (forM f l (s_set s)) as [[[]|e] m'] eqn:E1; [|discriminate].
    rewrite (each_ok f g H l _ m' E1) in E. exact E.
  Qed.
  Lemma update_follows its : follows (hs_update hash heq probe T ord its) (ss_update T eqb ord [AIter its]).
  Proof.
    intros s x s' E. unfold hs_update, bind at 1, liftr in E. destruct (t_of hash heq probe its) as [vals|e] eqn:Ev; [|discriminate].
    apply (t_of_ok hash heq probe HC HL) in Ev. subst vals. unfold ss_update. cbn [map concat items]. rewrite app_nil_r. unfold members in *.
    unfold bind at 1 2, get, ret in E. unfold bind at 1 2, get, ret. destruct (length (s_set s) <? 4 * length (set_of eqb its)).
    - revert E. apply each_follows. apply (t_add_ok hash heq probe HC HL).
    - revert E. apply follows_bind; [apply follows_refl|]. intros vs. apply follows_forM, add_follows.
  Qed.
  Lemma difference_update_follows its : follows (hs_difference_update hash heq probe T ord its) (ss_difference_update T eqb ord [AIter its]).
  Proof.
    intros s x s' E. unfold hs_difference_update, bind at 1, liftr in E. destruct (t_of hash heq probe its) as [vals|e] eqn:Ev; [|discriminate].
    apply (t_of_ok hash heq probe HC HL) in Ev. subst vals. unfold ss_difference_update. cbn [map concat items]. rewrite app_nil_r. unfold members in *.
    unfold bind at 1 2, get, ret in E. unfold bind at 1 2, get, ret. destruct (length (s_set s) <? 4 * length (set_of eqb its)).
    - revert E. apply each_follows. apply (t_discard_ok hash heq probe HC HL).
    - revert E. apply follows_bind; [apply follows_refl|]. intros vs. apply follows_forM, discard_follows.
  Qed.
  Lemma sym_follows its : follows (hs_symmetric_difference_update hash heq probe T ord its) (ss_symmetric_difference_update T eqb ord (AIter its)).
  Proof.
    intros s x s' E. unfold hs_symmetric_difference_update, bind at 1, liftr in E. destruct (t_of hash heq probe its) as [vals|e] eqn:Ev; [|discriminate].
    apply (t_of_ok hash heq probe HC HL) in Ev. subst vals. unfold ss_symmetric_difference_update, members. unfold bind at 1 2, get, ret. cbn [items].
    revert E. apply each_follows. apply (t_toggle_ok hash heq probe HC HL).
  Qed.
  Lemma kept_ok m l : forall acc x acc', forM (fun v => b <- liftr (h_mem v m) ;; if b then t_add hash heq probe v else ret tt) l acc = (Ok x, acc') ->
    acc' = set_union eqb acc (filter (fun v => set_mem eqb v m) l).
  Proof.
    induction l as [|v l IH]; intros acc x acc' E; [injection E as _ <-; reflexivity|]. cbn [forM] in E. unfold bind at 1 2, liftr in E.
    destruct (h_mem v m) as [b|e] eqn:E0; [|discriminate]. apply (h_mem_ok hash heq probe HC HL) in E0. cbn [filter]. rewrite E0.
    destruct b; [|apply (IH _ _ _ E)]. destruct (t_add hash heq probe v acc) as [[[]|e] a1] eqn:E1; [|discriminate].
    apply (t_add_ok hash heq probe HC HL) in E1. subst. apply (IH _ _ _ E).
  Qed.
  Lemma intersection_follows its : follows (hs_intersection_update hash heq probe T ord its) (ss_intersection_update T eqb ord [AIter its]).
  Proof.
    intros s x s' E. unfold hs_intersection_update, ss_intersection_update, members in *. unfold bind at 1 2, get, ret in E. unfold bind at 1 2, get, ret.
    unfold bind at 1, liftr at 1 in E. destruct (forM _ its []) as [[u|e] kept] eqn:Ek; [|discriminate]. apply kept_ok in Ek. cbn [fold_left]. unfold set_inter, set_of.
    rewrite <- Ek. exact E.
  Qed.
  Lemma set_follows {B} o : follows (hs_step (B:=B) hash heq probe T ord o) (set_total T eqb ord o).
  Proof.
    destruct o; cbn [hs_step set_total]; apply follows_gives.
    - apply add_follows.
    - apply discard_follows.
    - apply (raised_first _ _ v); [apply hs_remove_ok|apply hs_remove_err].
    - apply follows_bind; [apply follows_refl|]. intros v. apply follows_bind; [apply remove_follows|]. intros; apply follows_refl.
    - apply follows_bind; [apply follows_refl|]. intros v. apply follows_bind; [apply remove_follows|]. intros; apply follows_refl.
    - intros s x s' E. exact E.
    - apply (raised_first _ _ v); [apply hs_contains_ok|apply hs_contains_err].
    - apply (raised_first _ _ v); [apply hs_count_ok|apply hs_count_err].
    - apply update_follows.
    - apply difference_update_follows.
    - apply sym_follows.
    - apply intersection_follows.
  Qed.
  Lemma set_item {B} o v (s : SS) : set_arg o = Some v ->
    match fst (hs_contains hash heq probe v s) with
    | Err e => hs_step (B:=B) hash heq probe T ord o s = (Err e, s)
    | Ok _ => hs_step (B:=B) hash heq probe T ord o s = set_total T eqb ord o s
    end.
  Proof.
    unfold hs_contains. rewrite onset_mem. cbn [fst]. intros Ho.
    destruct o; try discriminate; injection Ho as ->; destruct (h_mem v (s_set s)) as [b|e] eqn:E; cbn [hs_step set_total]; unfold gives, bind.
    all: first [rewrite (hs_add_ok v b s E)|rewrite (hs_discard_ok v b s E)|rewrite (hs_remove_ok v b s E)|rewrite (hs_contains_ok v b s E)|rewrite (hs_count_ok v b s E)
      |rewrite (hs_add_err v e s E)|rewrite (hs_discard_err v e s E)|rewrite (hs_remove_err v e s E)|rewrite (hs_contains_err v e s E)|rewrite (hs_count_err v e s E)]; reflexivity.
  Qed.
End Sets.

(** ** Tables made by lookups that succeed *)
Section Settled.
  Context {V : Type}.
  Variable hash : V -> res Z.
  Variable heq : V -> V -> res bool.
  Variable probe : list V -> Z -> list V.
  Hypothesis HL : layout probe.
  Notation h_mem := (h_mem hash heq probe).
  Definition apart (x y : V) : Prop := hash x = hash y -> heq x y = Ok false.
  Definition settled (m : list V) : Prop := Forall (fun x => exists h, hash x = Ok h) m /\ ForallOrdPairs apart m.
  Lemma settled_nil : settled [].
  Proof. split; constructor. Qed.
  Lemma pairs_snoc m v : ForallOrdPairs apart m -> Forall (fun x => apart x v) m -> ForallOrdPairs apart (m ++ [v]).
  Proof.
    induction 1 as [|x m Hx Hm IH]; intros H; [repeat constructor|]. inversion H; subst. cbn. constructor; [|apply IH; assumption].
    apply Forall_app. split; [exact Hx|]. constructor; [assumption|constructor].
  Qed.
  Lemma settled_snoc m v : settled m -> h_mem v m = Ok false -> settled (m ++ [v]).
  Proof.
    intros [H1 H2] E. unfold ModelHash.h_mem in E. destruct (hash v) as [h|e] eqn:Eh; cbn [rbind] in E; [|discriminate]. split.
    - apply Forall_app. split; [exact H1|]. constructor; [exists h; exact Eh|constructor].
    - apply pairs_snoc; [exact H2|]. apply Forall_forall. intros x Hx Exv. apply (scan_false heq v _ E). apply filter_In.
      split; [apply (Permutation_in _ (Permutation_sym (HL m h))), Hx|]. unfold hashed. rewrite Exv, Eh. apply Z.eqb_refl.
  Qed.
  Lemma settled_filter f m : settled m -> settled (filter f m).
  Proof.
    intros [H1 H2]. split; [apply (incl_Forall (incl_filter f m) H1)|]. clear H1. induction H2 as [|x m Hx Hm IH]; [constructor|]. cbn. destruct (f x); [|exact IH].
    constructor; [|exact IH]. apply (incl_Forall (incl_filter f m) Hx).
  Qed.
  Lemma settled_lookup m v : itself heq -> two_sided heq -> settled m -> In v m -> h_mem v m = Ok true.
  Proof.
    intros HS H2 [Hh Hp] Hv. unfold ModelHash.h_mem. destruct (proj1 (Forall_forall _ _) Hh v Hv) as [h Eh]. rewrite Eh. cbn [rbind].
    assert (Hin : forall y, In y (filter (hashed hash h) (probe m h)) <-> In y m /\ hash y = Ok h).
    { intros y. rewrite filter_In. unfold hashed. split; intros [Hy E].
      - split; [apply (Permutation_in _ (HL m h)), Hy|]. destruct (hash y); [apply Z.eqb_eq in E; congruence|discriminate].
      - split; [apply (Permutation_in _ (Permutation_sym (HL m h))), Hy|]. rewrite E. apply Z.eqb_refl. }
    apply (scan_all heq v _ v); [apply Hin; auto|apply HS|]. intros y Hy. apply Hin in Hy as [Hy Ey].
    destruct (ForallOrdPairs_In Hp y v Hy Hv) as [->|[H|H]]; [exists true; apply HS| |].
    - exists false. apply H. congruence.
    - exists false. apply H2, H. congruence.
  Qed.

  (** Every change of a table keeps it settled, also one that raises. *)
  Definition keeps {S A} (P : S -> Prop) (m : M S A) : Prop := forall s, P s -> P (snd (m s)).
  Lemma keeps_ret {S A} P (x : res A) : @keeps S A P (liftr x).
  Proof. intros s H. exact H. Qed.
  Lemma keeps_bind {S A B} P (m : M S A) (f : A -> M S B) : keeps P m -> (forall x, keeps P (f x)) -> keeps P (bind m f).
  Proof. intros H H' s Hs. unfold bind. specialize (H s Hs). destruct (m s) as [[x|e] s1]; [apply H', H|exact H]. Qed.
  Lemma keeps_forM {S A} P (f : A -> M S unit) l : (forall x, keeps P (f x)) -> keeps P (forM f l).
  Proof. intros H. induction l as [|x l IH]; [intros s Hs; exact Hs|]. cbn [forM]. apply keeps_bind; [apply H|]. intros _. exact IH. Qed.
  Lemma t_add_keeps v : keeps settled (t_add hash heq probe v).
  Proof.
    intros m H. unfold t_add, bind. rewrite t_mem_mem. destruct (h_mem v m) as [[|]|e] eqn:E; [exact H| |exact H]. apply settled_snoc; assumption.
  Qed.
  Lemma t_discard_keeps v : keeps settled (t_discard hash heq probe v).
  Proof. intros m H. unfold t_discard, bind. rewrite t_mem_mem. destruct (h_mem v m) as [[|]|e] eqn:E; [|exact H|exact H]. apply settled_filter, H. Qed.
  Lemma t_remove_keeps v : keeps settled (t_remove hash heq probe v).
  Proof. intros m H. unfold t_remove, bind. rewrite t_mem_mem. destruct (h_mem v m) as [[|]|e] eqn:E; [|exact H|exact H]. apply settled_filter, H. Qed.
  Lemma t_toggle_keeps v : keeps settled (t_toggle hash heq probe v).
  Proof.
    intros m H. unfold t_toggle, bind. rewrite t_mem_mem. destruct (h_mem v m) as [[|]|e] eqn:E; [apply settled_filter, H| |exact H]. apply settled_snoc; assumption.
  Qed.

  Section Sets.
  Context {S K : Type}.
  Variable T : listcls S V K.
  Variable ord : nat -> list V -> list V.
  Notation SS := (sset S V).
  Definition P (s : SS) : Prop := settled (s_set s).
  Lemma onset_keeps {A} (m : M (list V) A) : keeps settled m -> keeps P (onset m).
  Proof. intros H s Hs. unfold onset, zoom. specialize (H (s_set s) Hs). destruct (m (s_set s)) as [r x]. exact H. Qed.
  Lemma onlist_keeps {A} (m : M S A) : keeps P (onlist m).
  Proof. intros s Hs. unfold onlist, zoom. destruct (m (s_list s)) as [r x]. exact Hs. Qed.
  Lemma visit_keeps x : keeps P (visit ord x).
  Proof. intros s Hs. exact Hs. Qed.
  Lemma members_keeps : keeps P (@members S V).
  Proof. intros s Hs. exact Hs. Qed.
  Lemma relist_keeps : keeps P (relist T ord).
  Proof.
    unfold relist. apply keeps_bind; [apply onlist_keeps|]. intros _. apply keeps_bind; [apply members_keeps|]. intros m. apply keeps_bind; [apply visit_keeps|].
    intros vs. apply onlist_keeps.
  Qed.
  Lemma mem_keeps v : keeps P (onset (t_mem hash heq probe v)).
  Proof. apply onset_keeps. intros m H. exact H. Qed.
  Lemma hs_add_keeps v : keeps P (hs_add hash heq probe T v).
  Proof.
    unfold hs_add. apply keeps_bind; [apply mem_keeps|]. intros [|]; [intros s H; exact H|]. apply keeps_bind; [apply onset_keeps, t_add_keeps|]. intros _. apply onlist_keeps.
  Qed.
  Lemma hs_discard_keeps v : keeps P (hs_discard hash heq probe T v).
  Proof.
    unfold hs_discard. apply keeps_bind; [apply mem_keeps|]. intros [|]; [|intros s H; exact H]. apply keeps_bind; [apply onset_keeps, t_remove_keeps|]. intros _. apply onlist_keeps.
  Qed.
  Lemma kept_settled m l : keeps settled (forM (fun v => b <- liftr (h_mem v m) ;; if b then t_add hash heq probe v else ret tt) l).
  Proof. apply keeps_forM. intros v. apply keeps_bind; [apply keeps_ret|]. intros [|]; [apply t_add_keeps|intros s H; exact H]. Qed.
  Lemma hs_step_keeps {B} o : keeps P (hs_step (B:=B) hash heq probe T ord o).
  Proof.
    destruct o; cbn [hs_step]; (apply keeps_bind; [|intros x0 s0 H0; exact H0]).
    - apply hs_add_keeps.
    - apply hs_discard_keeps.
    - apply keeps_bind; [apply onset_keeps, t_remove_keeps|]. intros _. apply onlist_keeps.
    - apply keeps_bind; [apply onlist_keeps|]. intros v. apply keeps_bind; [apply onset_keeps, t_remove_keeps|]. intros _ s H; exact H.
    - apply keeps_bind; [apply onlist_keeps|]. intros v. apply keeps_bind; [apply onset_keeps, t_remove_keeps|]. intros _. apply onlist_keeps.
    - apply keeps_bind; [apply onset_keeps; intros m _; apply settled_nil|]. intros _. apply onlist_keeps.
    - apply mem_keeps.
    - apply keeps_bind; [apply mem_keeps|]. intros b s H; exact H.
    - apply keeps_bind; [apply keeps_ret|]. intros vals. apply keeps_bind; [apply members_keeps|]. intros m. destruct (length m <? 4 * length vals).
      + apply keeps_bind; [apply onset_keeps, keeps_forM, t_add_keeps|]. intros _. apply relist_keeps.
      + apply keeps_bind; [apply visit_keeps|]. intros vs. apply keeps_forM, hs_add_keeps.
    - apply keeps_bind; [apply keeps_ret|]. intros vals. apply keeps_bind; [apply members_keeps|]. intros m. destruct (length m <? 4 * length vals).
      + apply keeps_bind; [apply onset_keeps, keeps_forM, t_discard_keeps|]. intros _. apply relist_keeps.
      + apply keeps_bind; [apply visit_keeps|]. intros vs. apply keeps_forM, hs_discard_keeps.
    - apply keeps_bind; [apply keeps_ret|]. intros vals. apply keeps_bind; [apply onset_keeps, keeps_forM, t_toggle_keeps|]. intros _. apply relist_keeps.
    - intros s H. unfold hs_intersection_update, members. unfold bind at 1 2, get, ret. unfold bind at 1, liftr at 1.
      pose proof (kept_settled (s_set s) its [] settled_nil) as Hk. destruct (forM _ its []) as [[u|e] kept]; [|exact H]. cbn [snd] in Hk.
      apply keeps_bind; [apply onset_keeps; intros m _; exact Hk|intros _; apply relist_keeps|exact H].
  Qed.
  Lemma hs_run_keeps {B} ops : forall s, P s -> P (hs_run (B:=B) hash heq probe T ord ops s).
  Proof. induction ops as [|o ops IH]; intros s H; [exact H|]. cbn [hs_run]. apply IH, hs_step_keeps, H. Qed.
  End Sets.
End Settled.

(** ** SortedDict *)
Section Dicts.
  Context {V B S K : Type}.
  Variable hash : V -> res Z.
  Variable heq : V -> V -> res bool.
  Variable probe : list V -> Z -> list V.
  Hypothesis HL : layout probe.
  Variable T : listcls S V K.
  Notation h_mem := (h_mem hash heq probe).
  Notation eqb := (heqb heq).
  Notation SD := (sdict S V B).
  Notation keysof s := (map fst (d_items s)).

  Lemma ondict_mem k (s : SD) : ondict (g_mem hash heq probe k) s = (h_mem k (keysof s), s).
  Proof. destruct s. reflexivity. Qed.
  Lemma g_mem_mem k (d : list (V * B)) : g_mem hash heq probe k d = (h_mem k (map fst d), d).
  Proof. reflexivity. Qed.

  Section Coherent.
  Hypothesis HC : coherent_hash hash heq.
  Lemma h_dmem k (d : list (V * B)) b : h_mem k (map fst d) = Ok b -> d_mem eqb k d = b.
  Proof.
    intros E. apply (h_mem_ok hash heq probe HC HL) in E. rewrite <- E. unfold d_mem, set_mem. clear. induction d as [|p d IH]; [reflexivity|]. cbn. rewrite IH. reflexivity.
  Qed.
  Lemma d_get_absent k (d : list (V * B)) : d_mem eqb k d = false -> d_get eqb k d = Err KeyError.
  Proof.
    unfold d_mem, d_get. intros H. destruct (find _ d) as [p|] eqn:E; [|reflexivity]. apply find_some in E as [Hp E].
    assert (H' : existsb (fun p => eqb (fst p) k) d = true) by (apply existsb_exists; exists p; auto). congruence.
  Qed.
  Lemma ondict_get k b (s : SD) : h_mem k (keysof s) = Ok b -> ondict (g_get hash heq probe k) s = sd_getitem eqb k s.
  Proof.
    intros E. destruct s as [d x]. cbn [d_items] in E. unfold ondict, zoom, g_get, bind, get. cbn [d_items d_list]. rewrite g_mem_mem, E. apply h_dmem in E.
    unfold sd_getitem, items_of, bind, get, ret, liftr. cbn [d_items]. destruct b; [destruct (d_get eqb k d); reflexivity|]. rewrite (d_get_absent k d E). reflexivity.
  Qed.
  Lemma ondict_set k v b (s : SD) : h_mem k (keysof s) = Ok b -> ondict (g_set hash heq probe k v) s = put_items (d_set eqb k v (d_items s)) s.
  Proof.
    intros E. destruct s as [d x]. cbn [d_items] in E. unfold ondict, zoom, g_set, bind. cbn [d_items d_list]. rewrite g_mem_mem, E. apply h_dmem in E.
    unfold put_items, modify, d_set. cbn [d_items d_list]. rewrite E. destruct b; reflexivity.
  Qed.
  Lemma ondict_del k b (s : SD) : h_mem k (keysof s) = Ok b -> ondict (g_del hash heq probe k) s = dict_delitem eqb k s.
  Proof.
    intros E. destruct s as [d x]. cbn [d_items] in E. unfold ondict, zoom, g_del, bind. cbn [d_items d_list]. rewrite g_mem_mem, E. apply h_dmem in E.
    unfold dict_delitem, items_of, bind, get, ret. cbn [d_items]. rewrite E. destruct b; reflexivity.
  Qed.
  (** The list is not part of the table. *)
  Lemma onkeys_keysof {X} (m : M S X) (s : SD) : d_items (snd (onkeys m s)) = d_items s.
  Proof. unfold onkeys, zoom. destruct (m (d_list s)). reflexivity. Qed.
  Lemma hd_contains_ok k b (s : SD) : h_mem k (keysof s) = Ok b -> hd_contains hash heq probe k s = sd_contains eqb k s.
  Proof. intros E. unfold hd_contains. rewrite ondict_mem, E. apply h_dmem in E. unfold sd_contains, items_of, bind, get, ret. rewrite E. reflexivity. Qed.
  Lemma hd_setitem_ok k v b (s : SD) : h_mem k (keysof s) = Ok b -> hd_setitem hash heq probe T k v s = sd_setitem T eqb k v s.
  Proof.
    intros E. pose proof (h_dmem k _ b E) as E'. unfold hd_setitem, sd_setitem, items_of, bind, get, ret. rewrite ondict_mem, E, E'.
    destruct b.
    - rewrite (ondict_set k v _ s E). reflexivity.
    - pose proof (onkeys_keysof (l_add T k) s) as Ek. destruct (onkeys (l_add T k) s) as [[[]|e] s1]; [|reflexivity]. cbn [snd] in Ek.
      rewrite (ondict_set k v false s1) by (rewrite Ek; exact E). rewrite Ek. reflexivity.
  Qed.
  Lemma hd_delitem_ok k b (s : SD) : h_mem k (keysof s) = Ok b -> hd_delitem hash heq probe T k s = sd_delitem T eqb k s.
  Proof. intros E. unfold hd_delitem, sd_delitem, bind. rewrite (ondict_del k b s E). reflexivity. Qed.
  Lemma hd_pop_ok k v b (s : SD) : h_mem k (keysof s) = Ok b -> hd_pop hash heq probe T k v s = sd_pop T eqb k v s.
  Proof.
    intros E. pose proof (h_dmem k _ b E) as E'. unfold hd_pop, sd_pop, sd_getitem, items_of, bind, get, ret. rewrite ondict_mem, E, E'.
    destruct b; [|reflexivity]. pose proof (onkeys_keysof (l_remove T k) s) as Ek. destruct (onkeys (l_remove T k) s) as [[[]|e] s1]; [|reflexivity]. cbn [snd] in Ek.
    rewrite <- Ek in E. rewrite (ondict_get k true s1 E). unfold sd_getitem, items_of, bind, get, ret, liftr. destruct (d_get eqb k (d_items s1)); [|reflexivity].
    rewrite (ondict_del k true s1 E). reflexivity.
  Qed.
  Lemma hd_setdefault_ok k v b (s : SD) : h_mem k (keysof s) = Ok b -> hd_setdefault hash heq probe T k v s = sd_setdefault T eqb k v s.
  Proof.
    intros E. pose proof (h_dmem k _ b E) as E'. unfold hd_setdefault, sd_setdefault, items_of, bind, get, ret. rewrite ondict_mem, E, E'.
    destruct b; [apply (ondict_get k true s E)|]. rewrite (ondict_set k v false s E). reflexivity.
  Qed.
  End Coherent.

  Lemma ondict_get_err k e (s : SD) : h_mem k (keysof s) = Err e -> ondict (g_get hash heq probe k) s = (Err e, s).
  Proof. intros E. destruct s as [d x]. cbn [d_items] in E. unfold ondict, zoom, g_get, bind. cbn [d_items d_list]. rewrite g_mem_mem, E. reflexivity. Qed.
  Lemma ondict_del_err k e (s : SD) : h_mem k (keysof s) = Err e -> ondict (g_del hash heq probe k) s = (Err e, s).
  Proof. intros E. destruct s as [d x]. cbn [d_items] in E. unfold ondict, zoom, g_del, bind. cbn [d_items d_list]. rewrite g_mem_mem, E. reflexivity. Qed.
  Lemma ondict_set_err k v e (s : SD) : h_mem k (keysof s) = Err e -> ondict (g_set hash heq probe k v) s = (Err e, s).
  Proof. intros E. destruct s as [d x]. cbn [d_items] in E. unfold ondict, zoom, g_set, bind. cbn [d_items d_list]. rewrite g_mem_mem, E. reflexivity. Qed.
  Lemma dict_err o k e (s : SD) : dict_arg o = Some k -> h_mem k (keysof s) = Err e -> hd_step hash heq probe T o s = (Err e, s).
  Proof.
    intros Ho E. destruct o; try discriminate; injection Ho as ->; cbn [hd_step]; unfold gives, bind at 1.
    - unfold hd_setitem, bind at 1. rewrite ondict_mem, E. reflexivity.
    - unfold hd_delitem, bind at 1. rewrite (ondict_del_err k e s E). reflexivity.
    - unfold hd_pop, bind at 1. rewrite ondict_mem, E. reflexivity.
    - unfold hd_setdefault, bind at 1. rewrite ondict_mem, E. reflexivity.
    - unfold hd_getitem. rewrite (ondict_get_err k e s E). reflexivity.
    - unfold hd_contains. rewrite ondict_mem, E. reflexivity.
  Qed.
  Section Follow.
  Hypothesis HC : coherent_hash hash heq.
  Lemma dict_ok o k b (s : SD) : dict_arg o = Some k -> h_mem k (keysof s) = Ok b -> hd_step hash heq probe T o s = dict_total T eqb o s.
  Proof.
    intros Ho E. destruct o; try discriminate; injection Ho as ->; cbn [hd_step dict_total]; unfold gives, bind at 1.
    - rewrite (hd_setitem_ok HC k v b s E). reflexivity.
    - rewrite (hd_delitem_ok HC k b s E). reflexivity.
    - rewrite (hd_pop_ok HC k default b s E). reflexivity.
    - rewrite (hd_setdefault_ok HC k v b s E). reflexivity.
    - unfold hd_getitem. rewrite (ondict_get HC k b s E). reflexivity.
    - rewrite (hd_contains_ok HC k b s E). reflexivity.
  Qed.
  Lemma raised_first_d {A} (m m' : M SD A) k : (forall b s, h_mem k (keysof s) = Ok b -> m s = m' s) ->
    (forall e s, h_mem k (keysof s) = Err e -> m s = (Err e, s)) -> follows m m'.
  Proof. intros H H' s x s' E. destruct (h_mem k (keysof s)) as [b|e] eqn:E0; [rewrite <- (H b s E0); exact E|rewrite (H' e s E0) in E; discriminate]. Qed.
  Lemma g_set_ok p (d d' : list (V * B)) : g_set hash heq probe (fst p) (snd p) d = (Ok tt, d') -> d' = d_set eqb (fst p) (snd p) d.
  Proof.
    unfold g_set, bind. rewrite g_mem_mem. destruct (h_mem (fst p) (map fst d)) as [b|e] eqn:E; [|discriminate]. apply (h_dmem HC) in E. unfold d_set. rewrite E.
    destruct b; intros H; injection H as <-; reflexivity.
  Qed.
  Lemma g_of_ok ps (d : list (V * B)) : g_of hash heq probe ps = Ok d -> d = d_of eqb ps.
  Proof.
    unfold g_of. destruct (forM _ ps []) as [[[]|e] m1] eqn:E; [|discriminate]. intros H. injection H as <-.
    exact (each_ok _ (fun d p => d_set eqb (fst p) (snd p) d) g_set_ok ps [] m1 E).
  Qed.
  Lemma each_follows_d ps (k : M SD unit) :
    forall s x s', bind (ondict (forM (fun p => g_set hash heq probe (fst p) (snd p)) ps)) (fun _ => k) s = (Ok x, s') ->
      bind (put_items (d_update eqb (d_items s) ps)) (fun _ => k) s = (Ok x, s').
  Proof.
    intros s x s' E. unfold bind, ondict, zoom in E. destruct (forM _ ps (d_items s)) as [[[]|e] m'] eqn:E1; [|discriminate].
    rewrite (each_ok _ (fun d p => d_set eqb (fst p) (snd p) d) g_set_ok ps _ m' E1) in E. exact E.
  Qed.
  Lemma setitem_follows k (v : B) : follows (hd_setitem hash heq probe T k v) (sd_setitem T eqb k v).
  Proof. apply (raised_first_d _ _ k); [intros b s E; apply (hd_setitem_ok HC k v b s E)|]. intros e s E. unfold hd_setitem, bind. rewrite ondict_mem, E. reflexivity. Qed.
  Lemma get_follows k : follows (ondict (S:=S) (g_get hash heq probe k)) (sd_getitem (B:=B) eqb k).
  Proof. apply (raised_first_d _ _ k); [intros b s E; apply (ondict_get HC k b s E)|]. intros e s E. apply ondict_get_err, E. Qed.
  Lemma del_follows k : follows (ondict (S:=S) (B:=B) (g_del hash heq probe k)) (dict_delitem eqb k).
  Proof. apply (raised_first_d _ _ k); [intros b s E; apply (ondict_del HC k b s E)|]. intros e s E. apply ondict_del_err, E. Qed.
  Lemma hd_update_follows (a : darg V B) : follows (hd_update hash heq probe T a) (sd_update T eqb a).
  Proof.
    intros s x s' E. unfold hd_update, sd_update, items_of in *. unfold bind at 1 2, get, ret in E. unfold bind at 1 2, get, ret.
    destruct (length (d_items s) =? 0); [revert E; apply each_follows_d|].
    unfold bind at 1, liftr in E.
    assert (Hp : forall pairs, match a with ADict ps => Ok ps | APairs ps => g_of hash heq probe ps end = Ok pairs ->
      pairs = match a with ADict ps => ps | APairs ps => d_of eqb ps end).
    { destruct a; intros p H; [congruence|apply g_of_ok, H]. }
    destruct (match a with ADict ps => Ok ps | APairs ps => g_of hash heq probe ps end) as [pairs|e]; [|discriminate].
    specialize (Hp pairs Logic.eq_refl). rewrite <- Hp. destruct (length (d_items s) <? 10 * length pairs).
    - revert E. apply each_follows_d.
    - revert E. apply follows_forM. intros p. apply setitem_follows.
  Qed.
  Lemma dict_follows (o : hdop V B) : follows (hd_step hash heq probe T o) (dict_total T eqb o).
  Proof.
    assert (H : forall k, dict_arg o = Some k -> follows (hd_step hash heq probe T o) (dict_total T eqb o)).
    { intros k Ho. apply (raised_first_d _ _ k); [intros b s E; apply (dict_ok o k b s Ho E)|intros e s E; apply (dict_err o k e s Ho E)]. }
    destruct o; try (eapply H; reflexivity); cbn [hd_step dict_total]; apply follows_gives.
    - apply follows_bind; [apply follows_refl|]. intros d. destruct (length d =? 0); [apply follows_refl|].
      apply follows_bind; [apply follows_refl|]. intros k. apply follows_bind; [apply get_follows|]. intros v. apply follows_bind; [apply del_follows|]. intros; apply follows_refl.
    - apply follows_bind; [apply follows_refl|]. intros k. apply follows_bind; [apply get_follows|]. intros v. apply follows_refl.
    - intros s x s' E. exact E.
    - apply hd_update_follows.
  Qed.
  Lemma dict_item o k (s : SD) : dict_arg o = Some k ->
    match fst (hd_contains hash heq probe k s) with
    | Err e => hd_step hash heq probe T o s = (Err e, s)
    | Ok _ => hd_step hash heq probe T o s = dict_total T eqb o s
    end.
  Proof.
    intros Ho. unfold hd_contains. rewrite ondict_mem. cbn [fst]. destruct (h_mem k (keysof s)) as [b|e] eqn:E; [apply (dict_ok o k b s Ho E)|apply (dict_err o k e s Ho E)].
  Qed.
  End Follow.

  (** *** Settled tables *)
  Definition PD (s : SD) : Prop := settled hash heq (map fst (d_items s)).
  Definition PG (d : list (V * B)) : Prop := settled hash heq (map fst d).
  Lemma g_set_keeps k v : keeps PG (g_set hash heq probe k v).
  Proof.
    intros d H. unfold g_set, bind. rewrite g_mem_mem. destruct (h_mem k (map fst d)) as [[|]|e] eqn:E; [| |exact H]; unfold PG, modify; cbn [snd].
    - rewrite map_map. rewrite (map_ext _ fst); [exact H|]. intros p. destruct (eqb (fst p) k); reflexivity.
    - rewrite map_app. apply (settled_snoc hash heq probe HL); [exact H|exact E].
  Qed.
  Lemma map_fst_filter (f : V -> bool) (d : list (V * B)) : map fst (filter (fun p => f (fst p)) d) = filter f (map fst d).
  Proof. induction d as [|p d IH]; [reflexivity|]. cbn. destruct (f (fst p)); cbn; rewrite IH; reflexivity. Qed.
  Lemma g_del_keeps k : keeps PG (g_del hash heq probe k).
  Proof.
    intros d H. unfold g_del, bind. rewrite g_mem_mem. destruct (h_mem k (map fst d)) as [[|]|e] eqn:E; [|exact H|exact H]. unfold PG, modify, d_del. cbn [snd].
    rewrite (map_fst_filter (fun x => negb (eqb x k))). apply settled_filter, H.
  Qed.
  Lemma g_get_keeps k : keeps PG (g_get hash heq probe k).
  Proof. intros d H. unfold g_get, bind. rewrite g_mem_mem. destruct (h_mem k (map fst d)); exact H. Qed.
  Lemma ondict_keeps {A} (m : M (list (V * B)) A) : keeps PG m -> keeps PD (ondict m).
  Proof. intros H s Hs. unfold ondict, zoom. specialize (H (d_items s) Hs). destruct (m (d_items s)) as [r x]. exact H. Qed.
  Lemma onkeys_keeps {A} (m : M S A) : keeps PD (onkeys m).
  Proof. intros s Hs. unfold onkeys, zoom. destruct (m (d_list s)) as [r x]. exact Hs. Qed.
  Lemma gmem_keeps k : keeps PD (ondict (g_mem hash heq probe k)).
  Proof. apply ondict_keeps. intros m H. exact H. Qed.
  Lemma quiet_keeps {A} (r : res A) : keeps PD (liftr r).
  Proof. intros s H. exact H. Qed.
  Lemma items_keeps : keeps PD (@items_of S V B).
  Proof. intros s H. exact H. Qed.
  Lemma keys_update_keeps : keeps PD (keys_update T).
  Proof. unfold keys_update. apply keeps_bind; [apply items_keeps|]. intros d. apply onkeys_keeps. Qed.
  Lemma hd_setitem_keeps k (v : B) : keeps PD (hd_setitem hash heq probe T k v).
  Proof.
    unfold hd_setitem. apply keeps_bind; [apply gmem_keeps|]. intros b. apply keeps_bind; [destruct b; [intros s H; exact H|apply onkeys_keeps]|].
    intros _. apply ondict_keeps, g_set_keeps.
  Qed.
  Lemma hd_step_keeps (o : hdop V B) : keeps PD (hd_step hash heq probe T o).
  Proof.
    destruct o; cbn [hd_step]; (apply keeps_bind; [|intros x0 s0 H0; exact H0]).
    - apply hd_setitem_keeps.
    - apply keeps_bind; [apply ondict_keeps, g_del_keeps|]. intros _. apply onkeys_keeps.
    - apply keeps_bind; [apply gmem_keeps|]. intros [|]; [|destruct default; intros s H; exact H]. apply keeps_bind; [apply onkeys_keeps|]. intros _.
      apply keeps_bind; [apply ondict_keeps, g_get_keeps|]. intros w. apply keeps_bind; [apply ondict_keeps, g_del_keeps|]. intros _ s H; exact H.
    - apply keeps_bind; [apply items_keeps|]. intros d. destruct (length d =? 0); [intros s H; exact H|]. apply keeps_bind; [apply onkeys_keeps|]. intros k.
      apply keeps_bind; [apply ondict_keeps, g_get_keeps|]. intros w. apply keeps_bind; [apply ondict_keeps, g_del_keeps|]. intros _ s H; exact H.
    - apply keeps_bind; [apply onkeys_keeps|]. intros k. apply keeps_bind; [apply ondict_keeps, g_get_keeps|]. intros w s H; exact H.
    - apply keeps_bind; [apply gmem_keeps|]. intros [|]; [apply ondict_keeps, g_get_keeps|]. apply keeps_bind; [apply ondict_keeps, g_set_keeps|].
      intros _. apply keeps_bind; [apply onkeys_keeps|]. intros _ s H; exact H.
    - apply ondict_keeps, g_get_keeps.
    - apply gmem_keeps.
    - apply keeps_bind; [apply ondict_keeps; intros m _; apply settled_nil|]. intros _. apply onkeys_keeps.
    - unfold hd_update. apply keeps_bind; [apply items_keeps|]. intros d. destruct (length d =? 0).
      + apply keeps_bind; [apply ondict_keeps, keeps_forM; intros p; apply g_set_keeps|]. intros _. apply keys_update_keeps.
      + apply keeps_bind; [apply quiet_keeps|]. intros pairs. destruct (length d <? 10 * length pairs).
        * apply keeps_bind; [apply ondict_keeps, keeps_forM; intros p; apply g_set_keeps|]. intros _. apply keeps_bind; [apply onkeys_keeps|]. intros _. apply keys_update_keeps.
        * apply keeps_forM. intros p. apply hd_setitem_keeps.
  Qed.
  Lemma hd_run_keeps ops : forall s, PD s -> PD (hd_run hash heq probe T ops s).
  Proof. induction ops as [|o ops IH]; intros s H; [exact H|]. cbn [hd_run]. apply IH, hd_step_keeps, H. Qed.
End Dicts.

(** ** The claims *)
Lemma c112_set : forall V B S K (hash : V -> res Z) heq probe (T : listcls S V K) ord o v (s : sset S V),
  coherent_hash hash heq -> layout probe -> set_arg o = Some v ->
  match fst (hs_contains hash heq probe v s) with
  | Err e => hs_step (B:=B) hash heq probe T ord o s = (Err e, s)
  | Ok _ => hs_step (B:=B) hash heq probe T ord o s = set_total T (fun x y => yes (heq x y)) ord o s
  end.
Proof. intros V B S K hash heq probe T ord o v s HC HL. apply (set_item hash heq probe HC HL T ord o v s). Qed.

Lemma c112_dict : forall V B S K (hash : V -> res Z) heq probe (T : listcls S V K) o k (s : sdict S V B),
  coherent_hash hash heq -> layout probe -> dict_arg o = Some k ->
  match fst (hd_contains hash heq probe k s) with
  | Err e => hd_step hash heq probe T o s = (Err e, s)
  | Ok _ => hd_step hash heq probe T o s = dict_total T (fun x y => yes (heq x y)) o s
  end.
Proof. intros V B S K hash heq probe T o k s HC HL. apply (dict_item hash heq probe HL T HC o k s). Qed.

Lemma c112_success : forall V B S K (hash : V -> res Z) heq probe (T : listcls S V K) ord,
  coherent_hash hash heq -> layout probe ->
  (forall o (s : sset S V) r s', hs_step (B:=B) hash heq probe T ord o s = (Ok r, s') -> set_total T (fun x y => yes (heq x y)) ord o s = (Ok r, s')) /\
  (forall o (s : sdict S V B) r s', hd_step hash heq probe T o s = (Ok r, s') -> dict_total T (fun x y => yes (heq x y)) o s = (Ok r, s')).
Proof.
  intros V B S K hash heq probe T ord HC HL. split; intros o s r s'; [apply (set_follows hash heq probe HC HL T ord o s r s')|apply (dict_follows hash heq probe HL T HC o s r s')].
Qed.

Lemma c113_set : forall V B S K (hash : V -> res Z) heq probe (T : listcls S V K) ord ops x t i,
  coherent_hash hash heq -> layout probe -> itself heq -> two_sided heq ->
  let s := hs_run (B:=B) hash heq probe T ord ops (mksset [] x t) in
  (forall v, In v (s_set s) -> fst (hs_contains hash heq probe v s) = Ok true) /\
  ((forall v, fst (l_pop T i (s_list s)) = Ok v -> In v (s_set s)) ->
    hs_step (B:=B) hash heq probe T ord (HPop i) s = set_total T (fun x y => yes (heq x y)) ord (HPop i) s) /\
  ((forall v, fst (l_get T i (s_list s)) = Ok v -> In v (s_set s)) ->
    hs_step (B:=B) hash heq probe T ord (HDel i) s = set_total T (fun x y => yes (heq x y)) ord (HDel i) s).
Proof.
  intros V B S K hash heq probe T ord ops x t i HC HL HS H2 s.
  assert (HP : settled hash heq (s_set s)) by (apply hs_run_keeps; [exact HL|apply settled_nil]).
  assert (Hm : forall v, In v (s_set s) -> h_mem hash heq probe v (s_set s) = Ok true) by (intros v Hv; apply settled_lookup; assumption).
  split; [|split].
  - intros v Hv. unfold hs_contains. rewrite onset_mem. cbn [fst]. apply Hm, Hv.
  - intros H. cbn [hs_step set_total]. unfold gives, hs_pop, ss_pop, bind. unfold onlist, zoom. destruct (l_pop T i (s_list s)) as [[v|e] y]; [|reflexivity].
    specialize (Hm v (H v Logic.eq_refl)). rewrite (onset_remove hash heq probe HC HL v true); [reflexivity|exact Hm].
  - intros H. cbn [hs_step set_total]. unfold gives, hs_del, ss_del, bind. unfold onlist at 1 3, zoom. destruct (l_get T i (s_list s)) as [[v|e] y]; [|reflexivity].
    specialize (Hm v (H v Logic.eq_refl)). rewrite (onset_remove hash heq probe HC HL v true); [reflexivity|exact Hm].
Qed.

Lemma c113_dict : forall V B S K (hash : V -> res Z) heq probe (T : listcls S V K) ops x i,
  coherent_hash hash heq -> layout probe -> itself heq -> two_sided heq ->
  let s := hd_run (B:=B) hash heq probe T ops (mksd [] x) in
  (forall k, In k (map fst (d_items s)) -> fst (hd_contains hash heq probe k s) = Ok true) /\
  ((forall k, fst (l_pop T i (d_list s)) = Ok k -> In k (map fst (d_items s))) ->
    hd_step hash heq probe T (GPopItem i) s = dict_total T (fun x y => yes (heq x y)) (GPopItem i) s) /\
  ((forall k, fst (l_get T i (d_list s)) = Ok k -> In k (map fst (d_items s))) ->
    hd_step hash heq probe T (GPeekItem i) s = dict_total T (fun x y => yes (heq x y)) (GPeekItem i) s).
Proof.
  intros V B S K hash heq probe T ops x i HC HL HS H2 s.
  assert (HP : settled hash heq (map fst (d_items s))) by (apply hd_run_keeps; [exact HL|apply settled_nil]).
  assert (Hm : forall v, In v (map fst (d_items s)) -> h_mem hash heq probe v (map fst (d_items s)) = Ok true) by (intros v Hv; apply settled_lookup; assumption).
  split; [|split].
  - intros v Hv. unfold hd_contains. rewrite ondict_mem. cbn [fst]. apply Hm, Hv.
  - intros H. cbn [hd_step dict_total]. unfold gives, hd_popitem, sd_popitem, items_of, bind, get, ret. destruct (length (d_items s) =? 0); [reflexivity|].
    unfold onkeys, zoom. destruct (l_pop T i (d_list s)) as [[v|e] y]; [|reflexivity].
    specialize (Hm v (H v Logic.eq_refl)). rewrite (ondict_get hash heq probe HL HC v true); [|exact Hm].
    unfold sd_getitem, items_of, bind, get, ret, liftr. cbn [d_items]. destruct (d_get _ v (d_items s)); [|reflexivity].
    rewrite (ondict_del hash heq probe HL HC v true); [reflexivity|exact Hm].
  - intros H. cbn [hd_step dict_total]. unfold gives, hd_peekitem, sd_peekitem, bind. unfold onkeys, zoom. destruct (l_get T i (d_list s)) as [[v|e] y]; [|reflexivity].
    specialize (Hm v (H v Logic.eq_refl)). rewrite (ondict_get hash heq probe HL HC v true); [reflexivity|exact Hm].
Qed.

(** Values that may be compared unless they end in the same digit, which is their hash. *)
Definition clash (x y : nat) : res bool := if Nat.eqb x y then Ok true else if Nat.eqb (x mod 10) (y mod 10) then Err TypeError else Ok false.
Definition ending (x : nat) : res Z := Ok (Z.of_nat (x mod 10)).
Definition as_stored (m : list nat) (h : Z) : list nat := m.
Lemma clash_facts : coherent_hash ending clash /\ layout as_stored /\ itself clash /\ two_sided clash.
Proof.
  split; [|split; [|split]].
  - intros x y. unfold clash. destruct (Nat.eqb_spec x y) as [->|_]; [|destruct (_ =? _); discriminate]. intros _. exists (Z.of_nat (y mod 10)). auto.
  - intros m h. apply Permutation_refl.
  - intros x. unfold clash. rewrite Nat.eqb_refl. reflexivity.
  - intros x y b. unfold clash. rewrite (Nat.eqb_sym y x), (Nat.eqb_sym (y mod 10)). auto.
Qed.
Definition keep_order (n : nat) (l : list nat) : list nat := l.
Lemma c114_set : forall f, In f [HUpdate; HDifferenceUpdate; HSymmetricDifferenceUpdate] ->
  ~ (forall (hash : nat -> res Z) heq probe ord dflt first its,
    coherent_hash hash heq -> layout probe -> itself heq -> two_sided heq -> (forall n l, Permutation (ord n l) l) -> 1 <= dflt ->
    let T := plain (K:=nat) (total2 Nat.ltb) heq dflt in
    let s := hs_run (B:=unit) hash heq probe T ord [HUpdate first; f its] (mksset [] (sl_init dflt) 0) in
    Permutation (s_set s) (contents (s_list s))).
Proof.
  intros f Hf H. destruct clash_facts as (HC & HL & HS & H2).
  specialize (H ending clash as_stored keep_order 2 [1; 3; 4] [3; 2; 5; 11] HC HL HS H2 (fun n l => Permutation_refl l) ltac:(lia)).
  apply Permutation_length in H. destruct Hf as [<-|[<-|[<-|[]]]]; vm_compute in H; discriminate H.
Qed.
Lemma c114_dict : ~ (forall (hash : nat -> res Z) heq probe dflt first a,
    coherent_hash hash heq -> layout probe -> itself heq -> two_sided heq -> 1 <= dflt ->
    let T := plain (K:=nat) (total2 Nat.ltb) heq dflt in
    let s := hd_run (B:=nat) hash heq probe T [GUpdate first; GUpdate a] (mksd [] (sl_init dflt)) in
    Permutation (map fst (d_items s)) (contents (d_list s))).
Proof.
  intros H. destruct clash_facts as (HC & HL & HS & H2).
  specialize (H ending clash as_stored 2 (APairs [(1, 0)]) (APairs [(2, 0); (11, 0)]) HC HL HS H2 ltac:(lia)).
  apply Permutation_length in H. vm_compute in H. discriminate H.
Qed.

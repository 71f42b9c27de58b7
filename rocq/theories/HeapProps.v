(** * Lemmas for the property theorems about worlds of SortedLists *)
From Verif Require Import PyBase Model Spec SpecFacts History Reach ListProps ModelHeap HeapSpec HeapFacts HeapSim HeapSim2.
Local Unset Implicit Arguments.

Section Obs.
  Context {V : Type}.
  Variables lt eq : V -> V -> res bool.
  Variable dflt : nat.
  Notation ST := (heap V * hsl V)%type.

  Definition follows (s : ST) (p : out V * ST) (q : out V * core V V) : Prop :=
    fst p = fst q /\ view (snd p) = snd q /\ good (snd p) /\ frame s (snd p).
  Lemma follows_obs {A} (inj : A -> out V) m (hm : M ST A) s : good s -> (forall n, sim n any same m hm) ->
    follows s (observe inj hm s) (observe inj m (view s)).
  Proof.
    intros HG H. destruct (H (length (fst s)) s HG (le_n _) I) as (E & G & F & X). unfold follows, observe.
    destruct (m (view s)) as [r c], (hm s) as [r' s']. cbn in *. destruct r as [a|e], r' as [b|e']; try contradiction; cbn;
      (split; [unfold same in X; congruence|]; split; [exact E|]; split; [exact G|exact F]).
  Qed.
  Lemma follows_obs_at {A} (inj : A -> out V) m (hm : M ST A) (P : ST -> Prop) s : good s -> P s -> (forall n, sim n P same m hm) ->
    follows s (observe inj hm s) (observe inj m (view s)).
  Proof.
    intros HG HP H. destruct (H (length (fst s)) s HG (le_n _) HP) as (E & G & F & X). unfold follows, observe.
    destruct (m (view s)) as [r c], (hm s) as [r' s']. cbn in *. destruct r as [a|e], r' as [b|e']; try contradiction; cbn;
      (split; [unfold same in X; congruence|]; split; [exact E|]; split; [exact G|exact F]).
  Qed.
  Lemma step_follows o s : good s -> simple_op o -> follows s (h_step lt eq o s) (sl_step lt eq dflt o (view s)).
  Proof.
    intros HG Ho. destruct o; try destruct Ho; cbn [h_step sl_step]; apply follows_obs; try exact HG; intros base.
    - apply sim_add.
    - apply sim_clear.
    - apply sim_discard.
    - apply sim_remove.
    - apply sim_reading, keeps_contains.
    - apply sim_reading, keeps_getitem.
    - apply sim_delitem.
    - apply sim_delitem_slice.
    - apply sim_pop.
    - apply sim_reading. keep.
    - apply sim_reading. keep.
    - apply sim_reading. keep.
    - apply sim_reading, keeps_bisect_left.
    - apply sim_reading, keeps_bisect_right.
    - apply sim_reading, keeps_count.
    - apply sim_reading, keeps_index.
    - apply sim_reading, keeps_irange.
    - apply sim_reading, keeps_islice.
    - apply sim_reset.
    - apply sim_imul.
    - apply sim_raise.
  Qed.
End Obs.

Lemma nth_set_obj {V} (l : list (hsl V)) : forall i j o, i < length l -> nth_error (set_obj l i o) j = if i =? j then Some o else nth_error l j.
Proof. induction l as [|x l IH]; intros [|i] [|j] o H; cbn in *; try lia; auto. apply IH. lia. Qed.
Lemma length_set_obj {V} (l : list (hsl V)) : forall i o, length (set_obj l i o) = length l.
Proof. induction l as [|x l IH]; intros [|i] o; cbn; auto. Qed.
Lemma nth_replace {V} (l : list V) : forall i j o, i < length l -> nth_error (replace l i o) j = if i =? j then Some o else nth_error l j.
Proof. induction l as [|x l IH]; intros [|i] [|j] o H; cbn in *; try lia; auto. apply IH. lia. Qed.
Lemma length_replace {V} (l : list V) : forall i o, length (replace l i o) = length l.
Proof. induction l as [|x l IH]; intros [|i] o; cbn; auto. Qed.
Lemma getn_nth {A} (l : list A) i x : getn l i = Ok x <-> nth_error l i = Some x.
Proof. unfold getn. destruct (nth_error l i); split; congruence. Qed.
Lemma getn_err {A} (l : list A) i e : getn l i = Err e -> e = IndexError /\ length l <= i.
Proof. unfold getn. destruct (nth_error l i) eqn:E; intros H; [discriminate|]. split; [congruence|]. apply nth_error_None, E. Qed.
Lemma getn_short {A} (l : list A) i : length l <= i -> getn l i = Err IndexError.
Proof. intros H. unfold getn. apply nth_error_None in H. rewrite H. reflexivity. Qed.

Section Worlds.
  Context {V X : Type}.
  Variables lt eq : V -> V -> res bool.
  Variable dflt : nat.
  Variable step : lop V -> X -> out V * X.
  Variable fresh : list V -> res X.
  Variable cont : X -> list V.
  Variable H0 : core V V -> X -> Prop.
  Variable ok : lop V -> Prop.
  Hypothesis Hok0 : forall o, ~ simple_op o -> ok o.
  Hypothesis Hstep : forall c x o, ok o -> H0 c x ->
    fst (sl_step lt eq dflt o c) = fst (step o x) /\ H0 (snd (sl_step lt eq dflt o c)) (snd (step o x)).
  Hypothesis Hfresh : forall v,
    match sl_new lt dflt v, fresh v with Ok c, Ok x => H0 c x | Err e, Err e' => e = e' | _, _ => False end.
  Hypothesis Hcont : forall c x, H0 c x -> contents c = cont x.
  Notation RW := (list X * list (list V))%type.
  Definition wok (o : wop V) : Prop := match o with WOp _ o => simple_op o /\ ok o | _ => True end.

  Definition holds (h : heap V) (o : hsl V) (l : X) : Prop := H0 (view (h, o)) l.
  Record rel (w : world V) (r : RW) : Prop := mkrel {
    rel_good : forall i o, nth_error (w_objs w) i = Some o -> good (w_heap w, o);
    rel_apart : forall i j o o', i <> j -> nth_error (w_objs w) i = Some o -> nth_error (w_objs w) j = Some o' ->
      forall x, In x (rows o) -> ~ In x (rows o');
    rel_user : forall i o x, nth_error (w_objs w) i = Some o -> In x (rows o) -> ~ In x (w_user w);
    rel_nodup : NoDup (w_user w);
    rel_bound : Forall (fun x => x < length (w_heap w)) (w_user w);
    rel_len : length (w_objs w) = length (fst r);
    rel_holds : forall i o l, nth_error (w_objs w) i = Some o -> nth_error (fst r) i = Some l -> holds (w_heap w) o l;
    rel_lists : map (cell (w_heap w)) (w_user w) = snd r }.

  Lemma rel_init : rel w_init ([], []).
  Proof. constructor; cbn; try (intros [|]; discriminate); try constructor; try reflexivity. Qed.

  Lemma holds_ext h h' o l : (forall x, In x (rows o) -> cell h' x = cell h x) -> holds h o l -> holds h' o l.
  Proof. intros H. unfold holds. rewrite (view_local h h' o H). auto. Qed.

  (** One object has moved on. *)
  Lemma rel_step w r i o l h' o' l' : rel w r -> nth_error (w_objs w) i = Some o -> nth_error (fst r) i = Some l ->
    good (h', o') -> frame (w_heap w, o) (h', o') -> holds h' o' l' ->
    rel (mkworld h' (set_obj (w_objs w) i o') (w_user w)) (replace (fst r) i l', snd r).
  Proof.
    intros R Ho Hl HG (FL & FC & FR) HH. cbn [fst snd] in *.
    assert (Hi : i < length (w_objs w)) by (apply nth_error_Some; congruence).
    assert (Hi' : i < length (fst r)) by (apply nth_error_Some; congruence).
    assert (Hlt : forall j p x, nth_error (w_objs w) j = Some p -> In x (rows p) -> x < length (w_heap w)).
    { intros j p x Hp Hx. destruct (rel_good w r R j p Hp) as [_ HF]. rewrite Forall_forall in HF. apply HF, Hx. }
    assert (Hc : forall j p x, i <> j -> nth_error (w_objs w) j = Some p -> In x (rows p) -> cell h' x = cell (w_heap w) x).
    { intros j p x Hn Hp Hx. apply FC; [eapply Hlt; eassumption|]. apply (rel_apart w r R j i p o); auto. }
    constructor; cbn [w_objs w_heap w_user fst snd].
    - intros j p Hp. rewrite nth_set_obj in Hp by exact Hi. destruct (Nat.eqb_spec i j) as [->|Hn].
      + injection Hp as <-. exact HG.
      + destruct (rel_good w r R j p Hp) as [HN HF]. split; [exact HN|]. cbn in *. eapply Forall_impl; [|exact HF]. cbn. intros; lia.
    - intros j k p q Hn Hp Hq x Hx. rewrite nth_set_obj in Hp, Hq by exact Hi.
      destruct (Nat.eqb_spec i j) as [Eij|Hij], (Nat.eqb_spec i k) as [Eik|Hik]; try (exfalso; congruence); subst.
      + injection Hp as <-. intros Hq'. destruct (FR x Hx) as [H|H].
        * exact (rel_apart w r R j k o q Hn Ho Hq x H Hq').
        * specialize (Hlt k q x Hq Hq'). lia.
      + injection Hq as <-. intros Hx'. destruct (FR x Hx') as [H|H].
        * exact (rel_apart w r R j k p o Hn Hp Ho x Hx H).
        * specialize (Hlt j p x Hp Hx). lia.
      + exact (rel_apart w r R j k p q Hn Hp Hq x Hx).
    - intros j p x Hp Hx Hu. rewrite nth_set_obj in Hp by exact Hi. destruct (Nat.eqb_spec i j) as [->|Hn].
      + injection Hp as <-. destruct (FR x Hx) as [H|H]; [exact (rel_user w r R j o x Ho H Hu)|].
        pose proof (rel_bound w r R) as HB. rewrite Forall_forall in HB. specialize (HB x Hu). lia.
      + exact (rel_user w r R j p x Hp Hx Hu).
    - apply (rel_nodup w r R).
    - eapply Forall_impl; [|apply (rel_bound w r R)]. cbn. intros; lia.
    - rewrite length_set_obj, length_replace. apply (rel_len w r R).
    - intros j p q Hp Hq. rewrite nth_set_obj in Hp by exact Hi. rewrite nth_replace in Hq by exact Hi'.
      destruct (Nat.eqb_spec i j) as [->|Hn].
      + injection Hp as <-. injection Hq as <-. exact HH.
      + eapply holds_ext; [|exact (rel_holds w r R j p q Hp Hq)]. intros x Hx. exact (Hc j p x Hn Hp Hx).
    - rewrite <- (rel_lists w r R). apply cells_same. intros x Hx. apply FC.
      + pose proof (rel_bound w r R) as HB. rewrite Forall_forall in HB. apply HB, Hx.
      + intros H. exact (rel_user w r R i o x Ho H Hx).
  Qed.
  (** A new object. *)
  Lemma rel_push w r o' l' : rel w r -> good (w_heap w, o') ->
    (forall j p x, nth_error (w_objs w) j = Some p -> In x (rows p) -> ~ In x (rows o')) ->
    (forall x, In x (rows o') -> ~ In x (w_user w)) -> holds (w_heap w) o' l' ->
    rel (mkworld (w_heap w) (w_objs w ++ [o']) (w_user w)) (fst r ++ [l'], snd r).
  Proof.
    intros R HG HA HU HH.
    assert (Hx : forall {A} (l : list A) a j b, nth_error (l ++ [a]) j = Some b -> nth_error l j = Some b \/ j = length l /\ b = a).
    { intros A l a j b H. destruct (Nat.lt_ge_cases j (length l)) as [Hj|Hj].
      - rewrite nth_error_app1 in H by exact Hj. left. exact H.
      - rewrite nth_error_app2 in H by exact Hj. destruct (j - length l) eqn:E; cbn in H; [|destruct n; discriminate].
        injection H as <-. right. split; [lia|reflexivity]. }
    constructor; cbn [w_objs w_heap w_user fst snd].
    - intros j p Hp. apply Hx in Hp as [Hp|[_ ->]]; [exact (rel_good w r R j p Hp)|exact HG].
    - intros j k p q Hn Hp Hq x Hix Hiq. apply Hx in Hp as [Hp|[Ej ->]], Hq as [Hq|[Ek ->]].
      + exact (rel_apart w r R j k p q Hn Hp Hq x Hix Hiq).
      + exact (HA j p x Hp Hix Hiq).
      + exact (HA k q x Hq Hiq Hix).
      + lia.
    - intros j p x Hp Hix Hu. apply Hx in Hp as [Hp|[_ ->]]; [exact (rel_user w r R j p x Hp Hix Hu)|exact (HU x Hix Hu)].
    - apply (rel_nodup w r R).
    - apply (rel_bound w r R).
    - rewrite !app_length, (rel_len w r R). reflexivity.
    - intros j p q Hp Hq. apply Hx in Hp as [Hp|[Ej ->]], Hq as [Hq|[Ek ->]].
      + exact (rel_holds w r R j p q Hp Hq).
      + assert (j < length (w_objs w)) by (apply nth_error_Some; congruence). rewrite (rel_len w r R) in H. lia.
      + assert (j < length (fst r)) by (apply nth_error_Some; congruence). rewrite <- (rel_len w r R) in H. lia.
      + exact HH.
    - apply (rel_lists w r R).
  Qed.
  (** A new list of the program. *)
  Lemma rel_give w r b v : rel w r -> b < length (w_heap w) -> (forall i o, nth_error (w_objs w) i = Some o -> ~ In b (rows o)) ->
    ~ In b (w_user w) -> cell (w_heap w) b = v ->
    rel (mkworld (w_heap w) (w_objs w) (w_user w ++ [b])) (fst r, snd r ++ [v]).
  Proof.
    intros R Hb Ho Hu Hv. constructor; cbn [w_objs w_heap w_user fst snd].
    - apply (rel_good w r R).
    - apply (rel_apart w r R).
    - intros i o x Hi Hx H. apply in_app_iff in H as [H|[<-|[]]]; [exact (rel_user w r R i o x Hi Hx H)|exact (Ho i o Hi Hx)].
    - apply (NoDup_Add (a:=b) (l:=w_user w)); [rewrite <- (app_nil_r (w_user w)) at 1; apply Add_app|]. split; [apply (rel_nodup w r R)|exact Hu].
    - apply Forall_app. split; [apply (rel_bound w r R)|repeat constructor; exact Hb].
    - apply (rel_len w r R).
    - apply (rel_holds w r R).
    - rewrite map_app, (rel_lists w r R). cbn. rewrite Hv. reflexivity.
  Qed.
  (** Further lists appear on the heap. *)
  Lemma rel_more w r h' : rel w r -> length (w_heap w) <= length h' ->
    (forall x, x < length (w_heap w) -> cell h' x = cell (w_heap w) x) -> rel (mkworld h' (w_objs w) (w_user w)) r.
  Proof.
    intros R HL HC.
    assert (Hlt : forall j p x, nth_error (w_objs w) j = Some p -> In x (rows p) -> x < length (w_heap w)).
    { intros j p x Hp Hx. destruct (rel_good w r R j p Hp) as [_ HF]. rewrite Forall_forall in HF. apply HF, Hx. }
    constructor; cbn [w_objs w_heap w_user fst snd].
    - intros j p Hp. destruct (rel_good w r R j p Hp) as [HN HF]. split; [exact HN|]. cbn in *. eapply Forall_impl; [|exact HF]. cbn. intros; lia.
    - apply (rel_apart w r R).
    - apply (rel_user w r R).
    - apply (rel_nodup w r R).
    - eapply Forall_impl; [|apply (rel_bound w r R)]. cbn. intros; lia.
    - apply (rel_len w r R).
    - intros j p q Hp Hq. eapply holds_ext; [|exact (rel_holds w r R j p q Hp Hq)]. intros x Hix. apply HC. exact (Hlt j p x Hp Hix).
    - rewrite <- (rel_lists w r R). apply cells_same. intros x Hix. apply HC.
      pose proof (rel_bound w r R) as HB. rewrite Forall_forall in HB. apply HB, Hix.
  Qed.

  Lemma objs_get w r i : rel w r ->
    match getn (w_objs w) i, getn (fst r) i with
    | Ok o, Ok l => nth_error (w_objs w) i = Some o /\ nth_error (fst r) i = Some l /\ holds (w_heap w) o l
    | Err e, Err e' => e = e'
    | _, _ => False
    end.
  Proof.
    intros R. pose proof (rel_len w r R) as HL. destruct (getn (w_objs w) i) as [o|e] eqn:E1.
    - apply getn_nth in E1. assert (Hi : i < length (w_objs w)) by (apply nth_error_Some; congruence).
      destruct (getn (fst r) i) as [l|e] eqn:E2; [|apply getn_err in E2; lia]. apply getn_nth in E2.
      split; [exact E1|]. split; [exact E2|]. eapply rel_holds; eassumption.
    - apply getn_err in E1 as [-> E1]. rewrite getn_short by lia. reflexivity.
  Qed.
  Lemma arg_get w r a : rel w r ->
    match w_arg w a, r_arg cont r a with
    | Ok x, Ok v => elems (w_heap w) x = v /\ forall o, arg_in x (w_heap w, o)
    | Err e, Err e' => e = e'
    | _, _ => False
    end.
  Proof.
    intros R. destruct a as [i|i]; cbn [w_arg r_arg].
    - rewrite <- (rel_lists w r R), getn_map. destruct (getn (w_user w) i) as [x|e] eqn:E; cbn; [|reflexivity].
      split; [reflexivity|]. intros _. pose proof (rel_bound w r R) as HB. rewrite Forall_forall in HB. apply HB. eapply getn_In, E.
    - pose proof (objs_get w r i R) as H. destruct (getn (w_objs w) i) as [o|e], (getn (fst r) i) as [l|e']; cbn; try contradiction; [|exact H].
      destruct H as (Ho & _ & Hs). split; [exact (Hcont _ _ Hs)|]. intros _. apply (rel_good w r R i o Ho).
  Qed.

  Lemma on_follows w r i o l (m : heap V * hsl V -> out V * (heap V * hsl V)) lo : rel w r ->
    nth_error (w_objs w) i = Some o -> nth_error (fst r) i = Some l -> ok lo ->
    follows (w_heap w, o) (m (w_heap w, o)) (sl_step lt eq dflt lo (view (w_heap w, o))) ->
    let '(x, (h', o')) := m (w_heap w, o) in
    x = fst (step lo l) /\
    rel (mkworld h' (set_obj (w_objs w) i o') (w_user w)) (replace (fst r) i (snd (step lo l)), snd r).
  Proof.
    intros R Ho Hl Hok HF. pose proof (rel_holds w r R i o l Ho Hl) as HH.
    destruct (Hstep _ l lo Hok HH) as (E & HH'). destruct (m (w_heap w, o)) as [x [h' o']].
    destruct HF as (E1 & E2 & HG & HF). cbn [fst snd] in *. split; [congruence|].
    eapply rel_step; try eassumption. unfold holds. rewrite E2. exact HH'.
  Qed.

  Lemma op_step w r i lo (m : heap V * hsl V -> out V * (heap V * hsl V)) : rel w r -> ok lo ->
    (forall o, nth_error (w_objs w) i = Some o -> follows (w_heap w, o) (m (w_heap w, o)) (sl_step lt eq dflt lo (view (w_heap w, o)))) ->
    fst (on_obj i m (@RExn V) w) = fst (r_on step i lo r) /\ rel (snd (on_obj i m (@RExn V) w)) (snd (r_on step i lo r)).
  Proof.
    intros R Hok HF. unfold on_obj, r_on. pose proof (objs_get w r i R) as HO.
    destruct (getn (w_objs w) i) as [o|e], (getn (fst r) i) as [l|e']; try contradiction.
    - destruct HO as (Ho & Hl & _). pose proof (on_follows w r i o l m lo R Ho Hl Hok (HF o Ho)) as X0.
      destruct (m (w_heap w, o)) as [x [h' o']]. destruct (step lo l) as [y l']. exact X0.
    - subst e'. split; [reflexivity|exact R].
  Qed.

  Lemma set_obj_same {A} (l : list (hsl A)) : forall i o, nth_error l i = Some o -> set_obj l i o = l.
  Proof. induction l as [|x l IH]; intros [|i] o H; cbn in *; try discriminate; [congruence|]. f_equal. apply IH, H. Qed.
  Lemma replace_same {A} (l : list A) : forall i o, nth_error l i = Some o -> replace l i o = l.
  Proof. induction l as [|x l IH]; intros [|i] o H; cbn in *; try discriminate; [congruence|]. f_equal. apply IH, H. Qed.

  (** Methods that build a new object. *)
  Lemma new_step w r i lo (m : M (core V V) (core V V)) (hm : heap V * hsl V -> res (hsl V) * (heap V * hsl V)) (P : _ -> Prop) :
    rel w r -> ok lo ->
    (forall c, sl_step lt eq dflt lo c = rebind m c) -> (forall c, snd (m c) = c) ->
    (forall n, sim n P (newobj n) m hm) -> (forall o, P (w_heap w, o)) ->
    fst (new_obj (on_obj i hm Err w)) = fst (r_new step i lo r) /\ rel (snd (new_obj (on_obj i hm Err w))) (snd (r_new step i lo r)).
  Proof.
    intros R Hok Hm Hk Hs HP. unfold on_obj, r_new. pose proof (objs_get w r i R) as HO.
    destruct (getn (w_objs w) i) as [o|e], (getn (fst r) i) as [l|e']; try contradiction; [|subst e'; split; [reflexivity|exact R]].
    destruct HO as (Ho & Hl & HH). pose proof (rel_good w r R i o Ho) as HG.
    destruct (Hstep _ l lo Hok HH) as (E & HH').
    destruct (Hs (length (w_heap w)) (w_heap w, o) HG (le_n _) (HP o)) as (E1 & G & F & X0). rewrite Hk in E1.
    rewrite Hm in E, HH'. unfold rebind in E, HH'. specialize (Hk (view (w_heap w, o))).
    destruct (hm (w_heap w, o)) as [rr [h' o1]]. cbn [fst snd] in *.
    assert (R1 : rel (mkworld h' (set_obj (w_objs w) i o1) (w_user w)) (replace (fst r) i l, snd r)).
    { eapply rel_step; try eassumption. unfold holds. rewrite E1. exact HH. }
    rewrite (replace_same _ _ _ Hl) in R1. replace (fst r, snd r) with r in R1 by (destruct r; reflexivity).
    destruct (m (view (w_heap w, o))) as [[n|e] c1]; destruct (step lo l) as [out l']; cbn [fst snd] in *; subst out;
      destruct rr as [o2|e2]; try contradiction; cbn [new_obj fst snd]; [|split; [congruence|exact R1]].
    destruct X0 as (X1 & X2 & X3). cbn [fst snd w_heap w_objs w_user] in *. split; [reflexivity|].
    destruct F as (FL & FC & FR). cbn [fst snd] in FL, FC, FR.
    assert (Hlt : forall j p x, nth_error (w_objs w) j = Some p -> In x (rows p) -> x < length (w_heap w)).
    { intros j p x Hp Hx. destruct (rel_good w r R j p Hp) as [_ HF]. rewrite Forall_forall in HF. apply HF, Hx. }
    apply (rel_push _ r o2 _ R1); cbn [w_heap w_objs w_user].
    - exact X2.
    - intros j p x Hp Hx Hx2. destruct (X3 x Hx2) as [Hlen Hno]. rewrite nth_set_obj in Hp by (apply nth_error_Some; congruence).
      destruct (Nat.eqb_spec i j) as [->|Hn]; [injection Hp as <-; contradiction|]. specialize (Hlt j p x Hp Hx). lia.
    - intros x Hx Hus. destruct (X3 x Hx) as [Hlen _]. pose proof (rel_bound w r R) as HB. rewrite Forall_forall in HB. specialize (HB x Hus). lia.
    - unfold holds. rewrite X1. exact HH'.
  Qed.

  Lemma slice_step w r i sl : rel w r ->
    fst (w_step lt eq dflt (WSlice i sl) w) = fst (r_step step fresh cont (WSlice i sl) r) /\
    rel (snd (w_step lt eq dflt (WSlice i sl) w)) (snd (r_step step fresh cont (WSlice i sl) r)).
  Proof.
    intros R. cbn [w_step r_step]. unfold on_obj, r_on. pose proof (objs_get w r i R) as HO.
    destruct (getn (w_objs w) i) as [o|e], (getn (fst r) i) as [l|e']; try contradiction; [|subst e'; split; [reflexivity|exact R]].
    destruct HO as (Ho & Hl & HH). pose proof (rel_good w r R i o Ho) as HG.
    destruct (Hstep _ l (LSlice sl) (Hok0 (LSlice sl) (fun f => f)) HH) as (E & HH').
    destruct (sim_getitem_slice (length (w_heap w)) sl (w_heap w, o) HG (le_n _) I) as (E1 & G & F & X0).
    cbn [sl_step] in E, HH'. unfold observe in E, HH'.
    destruct (h_getitem_slice sl (w_heap w, o)) as [rr [h' o1]]. cbn [fst snd] in *.
    assert (R1 : rel (mkworld h' (set_obj (w_objs w) i o1) (w_user w)) (replace (fst r) i (snd (step (LSlice sl) l)), snd r)).
    { eapply rel_step; try eassumption. unfold holds. rewrite E1.
      destruct (getitem_slice sl (view (w_heap w, o))) as [[v|e] c1]; exact HH'. }
    destruct (step (LSlice sl) l) as [out l']. cbn [fst snd] in *.
    destruct (getitem_slice sl (view (w_heap w, o))) as [[v|e] c1]; destruct rr as [b|e'];
      cbn [fst snd] in *; try contradiction; subst out; cbn [fst snd of_res] in *.
    - destruct X0 as (Eb & Hb & Hi & Hn). cbn [fst snd w_heap w_objs w_user] in *. split; [rewrite Eb; reflexivity|].
      apply (rel_give _ _ b v R1); cbn [w_heap w_objs w_user]; try assumption.
      + intros j p Hp Hx. rewrite nth_set_obj in Hp by (apply nth_error_Some; congruence).
        destruct (Nat.eqb_spec i j) as [->|Hn']; [injection Hp as <-; contradiction|].
        destruct (rel_good w r R j p Hp) as [_ HF]. rewrite Forall_forall in HF. specialize (HF b Hx). cbn in HF. lia.
      + intros Hu. pose proof (rel_bound w r R) as HB. rewrite Forall_forall in HB. specialize (HB b Hu). lia.
    - split; [congruence|]. exact R1.
  Qed.

  Lemma world_step w r o : rel w r -> wok o ->
    fst (w_step lt eq dflt o w) = fst (r_step step fresh cont o r) /\ rel (snd (w_step lt eq dflt o w)) (snd (r_step step fresh cont o r)).
  Proof.
    intros R Ho. destruct o as [l|i l|i|a|i o|i a|i a|i op a|i sl|i|i a|i n|i].
    - (* WList *) cbn. split; [reflexivity|].
      assert (R1 : rel (mkworld (w_heap w ++ [l]) (w_objs w) (w_user w)) r).
      { apply rel_more; [exact R|rewrite app_length; lia|]. intros x Hx. apply cell_app_old, Hx. }
      apply (rel_give _ r (length (w_heap w)) l R1); cbn [w_heap w_objs w_user].
      + rewrite app_length. cbn. lia.
      + intros j p Hp Hx. destruct (rel_good w r R j p Hp) as [_ HF]. rewrite Forall_forall in HF. specialize (HF _ Hx). cbn in HF. lia.
      + intros Hu. pose proof (rel_bound w r R) as HB. rewrite Forall_forall in HB. specialize (HB _ Hu). lia.
      + apply cell_app_new.
    - (* WMutate *) cbn. rewrite <- (rel_lists w r R), getn_map. destruct (getn (w_user w) i) as [x|e] eqn:E; cbn [rbind fst snd];
        [|split; [reflexivity|exact R]].
      split; [reflexivity|]. pose proof (rel_bound w r R) as HB. rewrite Forall_forall in HB.
      assert (Hx : x < length (w_heap w)) by (apply HB; eapply getn_In, E).
      assert (Hno : forall j p, nth_error (w_objs w) j = Some p -> ~ In x (rows p)).
      { intros j p Hp Hi. exact (rel_user w r R j p x Hp Hi (getn_In _ _ _ E)). }
      constructor; cbn [w_objs w_heap w_user fst snd].
      + intros j p Hp. destruct (rel_good w r R j p Hp) as [HN HF]. split; [exact HN|]. cbn. rewrite length_write. exact HF.
      + apply (rel_apart w r R).
      + apply (rel_user w r R).
      + apply (rel_nodup w r R).
      + rewrite length_write. apply (rel_bound w r R).
      + apply (rel_len w r R).
      + intros j p q Hp Hq. eapply holds_ext; [|exact (rel_holds w r R j p q Hp Hq)]. intros y Hy. apply cell_write_other.
        intros ->. exact (Hno j p Hp Hy).
      + pose proof (updn_cell (w_heap w) (w_user w) i (fun _ => Ok l) (rel_nodup w r R) (rel_bound w r R)) as X1. rewrite E in X1. cbn [rbind] in X1.
        assert (Y : forall {A} (q : list (list A)) k z, k < length q -> updn q k (fun _ => Ok z) = Ok (replace q k z)).
        { intros A q. induction q as [|y q IH]; intros [|k] z Hk; cbn in *; try lia; [reflexivity|]. rewrite IH by lia. reflexivity. }
        rewrite Y in X1; [apply ok_inj in X1; symmetry; exact X1|]. rewrite map_length. apply nth_error_Some. apply getn_nth in E. congruence.
    - (* WLook *) cbn. rewrite <- (rel_lists w r R), getn_map. destruct (getn (w_user w) i) as [x|e] eqn:E; cbn; (split; [reflexivity|exact R]).
    - (* WNew *) cbn [w_step r_step]. unfold with_arg, r_with. pose proof (arg_get w r a R) as HA.
      destruct (w_arg w a) as [x|e], (r_arg cont r a) as [v|e']; try contradiction; [|subst; split; [reflexivity|exact R]].
      destruct HA as [Hv _]. destruct (new_sim lt dflt x v (w_heap w) Hv) as (L & C & X0).
      pose proof (Hfresh v) as HF0. destruct (h_new lt dflt x (w_heap w)) as [[o2|e] h'], (sl_new lt dflt v) as [c|e0], (fresh v) as [y0|e1];
        cbn [fst snd] in *; try contradiction; pose proof (rel_more w r h' R L C) as R1; [|cbn; split; [congruence|exact R1]].
      destruct X0 as (X1 & X2 & X3). cbn [new_obj fst snd w_heap w_objs w_user]. split; [reflexivity|].
      apply (rel_push _ r o2 _ R1); cbn [w_heap w_objs w_user].
      + exact X2.
      + intros j p y Hp Hy Hy2. destruct (rel_good w r R j p Hp) as [_ HF]. rewrite Forall_forall in HF. specialize (HF _ Hy). specialize (X3 y Hy2). cbn in HF. lia.
      + intros y Hy Hu. pose proof (rel_bound w r R) as HB. rewrite Forall_forall in HB. specialize (HB _ Hu). specialize (X3 y Hy). lia.
      + unfold holds. rewrite X1. exact HF0.
    - (* WOp *) destruct Ho as [Hs Hok]. cbn [w_step r_step]. apply op_step; [exact R|exact Hok|].
      intros o' Ho. apply step_follows; [exact (rel_good w r R i o' Ho)|exact Hs].
    - (* WUpdate *) cbn [w_step r_step]. unfold with_arg, r_with. pose proof (arg_get w r a R) as HA.
      destruct (w_arg w a) as [x|e], (r_arg cont r a) as [v|e']; try contradiction; [|subst; split; [reflexivity|exact R]].
      destruct HA as [Hv _]. apply op_step; [exact R|apply Hok0; exact (fun f => f)|]. intros o Hoo.
      apply (follows_obs_at runit _ _ (gives x v)); [exact (rel_good w r R i o Hoo)|exact Hv|]. intros n. apply sim_update.
    - (* WIAdd *) cbn [w_step r_step]. unfold with_arg, r_with. pose proof (arg_get w r a R) as HA.
      destruct (w_arg w a) as [x|e], (r_arg cont r a) as [v|e']; try contradiction; [|subst; split; [reflexivity|exact R]].
      destruct HA as [Hv _]. apply op_step; [exact R|apply Hok0; exact (fun f => f)|]. intros o Hoo.
      apply (follows_obs_at runit _ _ (gives x v)); [exact (rel_good w r R i o Hoo)|exact Hv|]. intros n. apply sim_update.
    - (* WCompare *) cbn [w_step r_step]. unfold with_arg, r_with. pose proof (arg_get w r a R) as HA.
      destruct (w_arg w a) as [x|e], (r_arg cont r a) as [v|e']; try contradiction; [|subst; split; [reflexivity|exact R]].
      destruct HA as [Hv _]. apply op_step; [exact R|apply Hok0; exact (fun f => f)|]. intros o Hoo.
      unfold gives in Hv. cbn [fst] in Hv. rewrite Hv.
      apply (follows_obs (@RBool V)); [exact (rel_good w r R i o Hoo)|]. intros n. apply sim_reading, keeps_compare.
    - apply slice_step, R.
    - cbn [w_step r_step]. eapply (new_step w r i LCopy (sl_copy lt dflt) _ any); try reflexivity; try exact R; try (intros; exact I); try (apply Hok0; exact (fun f => f)).
      + intros n. apply sim_copy.
    - cbn [w_step r_step]. unfold with_arg, r_with. pose proof (arg_get w r a R) as HA.
      destruct (w_arg w a) as [x|e], (r_arg cont r a) as [v|e']; try contradiction; [|subst; split; [reflexivity|exact R]].
      destruct HA as [Hv Hin].
      eapply (new_step w r i (LPlus v) (sl_plus lt dflt v) _ (fun s => gives x v s /\ arg_in x s)); try reflexivity; try exact R; try (intros; exact I); try (apply Hok0; exact (fun f => f)).
      + intros n. apply sim_plus.
      + intros o. split; [exact Hv|apply Hin].
    - cbn [w_step r_step]. eapply (new_step w r i (LMul n) (sl_mul lt dflt n) _ any); try reflexivity; try exact R; try (intros; exact I); try (apply Hok0; exact (fun f => f)).
      + intros k. apply sim_mul.
    - cbn [w_step r_step]. eapply (new_step w r i LReduce (sl_reduce lt dflt) _ any); try reflexivity; try exact R; try (intros; exact I); try (apply Hok0; exact (fun f => f)).
      + intros n. apply sim_reduce.
  Qed.

  Lemma world_run ops : forall w r, rel w r -> Forall wok ops ->
    fst (w_run lt eq dflt ops w) = fst (r_run step fresh cont ops r) /\ rel (snd (w_run lt eq dflt ops w)) (snd (r_run step fresh cont ops r)).
  Proof.
    unfold w_run, r_run. induction ops as [|o ops IH]; intros w r R HF; [split; [reflexivity|exact R]|].
    apply Forall_cons_iff in HF as [Ho HF]. destruct (world_step w r o R Ho) as [E R1]. cbn [run].
    destruct (w_step lt eq dflt o w) as [x w1], (r_step step fresh cont o r) as [y r1]. cbn [fst snd] in *. subst y.
    destruct (IH w1 r1 R1 HF) as [E2 R2]. destruct (run (w_step lt eq dflt) ops w1) as [xs w2], (run (r_step step fresh cont) ops r1) as [ys r2].
    cbn [fst snd] in *. subst. split; [reflexivity|exact R2].
  Qed.
End Worlds.


Lemma nodup_app3 {A} (l m : list A) : NoDup l -> NoDup m -> (forall x, In x l -> ~ In x m) -> NoDup (l ++ m).
Proof.
  intros Hl Hm. induction Hl as [|x l Hx Hl IH]; intros H; cbn; [exact Hm|]. constructor.
  - intros Hi. apply in_app_iff in Hi as [Hi|Hi]; [exact (Hx Hi)|exact (H x (or_introl eq_refl) Hi)].
  - apply IH. intros y Hy. apply H. right. exact Hy.
Qed.
(** No list object is used twice. *)
Lemma rel_distinct {V X} (H0 : core V V -> X -> Prop) w r : rel H0 w r -> NoDup (flat_map (@rows V) (w_objs w) ++ w_user w).
Proof.
  intros R. apply nodup_app3.
  - pose proof (rel_good _ w r R) as HG. pose proof (rel_apart _ w r R) as HA. revert HG HA. generalize (w_objs w). intros l.
    induction l as [|o l IH]; intros HG HA; cbn; [constructor|]. apply nodup_app3.
    + apply (HG 0 o eq_refl).
    + apply IH; [intros i p Hp; exact (HG (S i) p Hp)|]. intros i j p q Hn Hp Hq. apply (HA (S i) (S j)); [lia|exact Hp|exact Hq].
    + intros x Hx Hi. apply in_flat_map in Hi as (p & Hp & Hi). apply In_nth_error in Hp as [j Hp].
      exact (HA 0 (S j) o p ltac:(lia) eq_refl Hp x Hx Hi).
  - apply (rel_nodup _ w r R).
  - intros x Hx Hu. apply in_flat_map in Hx as (p & Hp & Hi). apply In_nth_error in Hp as [j Hp].
    exact (rel_user _ w r R j p x Hp Hi Hu).
Qed.
Lemma rel_contents {V X Y} (H0 : core V V -> X -> Prop) (f : core V V -> Y) (g : X -> Y) w r :
  (forall c x, H0 c x -> f c = g x) -> rel H0 w r -> map (fun o => f (view (w_heap w, o))) (w_objs w) = map g (fst r).
Proof.
  intros HC R. pose proof (rel_len _ w r R) as HL. pose proof (rel_holds _ w r R) as HH. unfold holds in HH. revert HL HH.
  generalize (w_heap w), (w_objs w), (fst r). clear - HC. intros h l. induction l as [|o l IH]; intros [|x m] HL HH; cbn in *; try lia; [reflexivity|].
  f_equal; [exact (HC _ _ (HH 0 o x eq_refl eq_refl))|]. apply IH; [lia|]. intros i p q Hp Hq. exact (HH (S i) p q Hp Hq).
Qed.

Lemma c77_values : forall (V : Type) (lt eq : V -> V -> res bool) (dflt : nat) (ops : list (wop V)) outs (w : world V) outs' objs users,
  Forall (fun o => match o with WOp _ o => simple_op o | _ => True end) ops ->
  w_run lt eq dflt ops w_init = (outs, w) -> value_world lt eq dflt ops ([], []) = (outs', (objs, users)) ->
  outs = outs' /\ map (fun o => view (w_heap w, o)) (w_objs w) = objs /\ map (cell (w_heap w)) (w_user w) = users /\
  NoDup (flat_map (@rows V) (w_objs w) ++ w_user w).
Proof.
  intros V lt eq dflt ops outs w outs' objs users HF E1 E2.
  destruct (world_run lt eq dflt (sl_step lt eq dflt) (sl_new lt dflt) contents Logic.eq (fun _ => True)
    (fun _ _ => I) ltac:(intros c x o _ ->; split; reflexivity) ltac:(intros v; destruct (sl_new lt dflt v); reflexivity) ltac:(intros c x ->; reflexivity)
    ops w_init ([], []) (rel_init _)) as [A B].
  { eapply Forall_impl; [|exact HF]. intros []; cbn; auto. }
  unfold value_world in E2. rewrite E1, E2 in A. rewrite E1, E2 in B. cbn [fst snd] in *.
  split; [exact A|]. split; [|split; [apply (rel_lists _ w _ B)|exact (rel_distinct _ w _ B)]].
  pose proof (rel_contents _ (fun c => c) (fun c => c) w _ (fun c x E => E) B) as Y. cbn in Y. rewrite map_id in Y. exact Y.
Qed.
Lemma c77_lists : forall (V : Type) (ltb eqb : V -> V -> bool) (dflt : nat) (ops : list (wop V)) outs w outs' objs users,
  TotalOrder ltb eqb -> 1 <= dflt -> Forall wop_ok ops ->
  w_run (total2 ltb) (total2 eqb) dflt ops w_init = (outs, w) -> list_world ltb eqb ops ([], []) = (outs', (objs, users)) ->
  outs = outs' /\ map (fun o => contents (view (w_heap w, o))) (w_objs w) = objs /\ map (cell (w_heap w)) (w_user w) = users.
Proof.
  intros V ltb eqb dflt ops outs w outs' objs users HT Hd HF E1 E2.
  destruct (world_run (total2 ltb) (total2 eqb) dflt (sp_step ltb eqb ltb) (fun l => Ok (sp_sort ltb l)) (fun l => l)
    (fun c l => sl_reach ltb eqb dflt c /\ shows c l) lop_ok) with (ops := ops) (w := @w_init V) (r := (@nil (list V), @nil (list V))) as [A B].
  - intros [] Hn; try (exfalso; exact (Hn I)); exact I.
  - intros c x o Ho [HR HS]. destruct (do_ok ltb eqb dflt HT Hd c x o HR HS Ho) as (c' & E & HR' & HS').
    unfold sl_do in E. rewrite E. auto.
  - intros v. assert (HI : sl_reach ltb eqb dflt (sl_init dflt)) by (exists []; split; [constructor|reflexivity]).
    destruct (do_ok ltb eqb dflt HT Hd _ [] (LUpdate v) HI eq_refl I) as (c' & E & HR' & HS').
    unfold sl_do in E. cbn [sl_step sp_step fst snd] in *. unfold observe in E. unfold sl_new. unfold sl_init in E.
    destruct (sl_update (total2 ltb) v (core_empty dflt)) as [[u|e] c1]; [|discriminate].
    assert (c1 = c') by congruence. subst. split; [exact HR'|exact HS'].
  - intros c x [_ HS]. apply shows_iff, HS.
  - apply rel_init.
  - exact HF.
  - unfold list_world in E2. rewrite E1, E2 in A. rewrite E1, E2 in B. cbn [fst snd] in *.
    split; [exact A|]. split; [|apply (rel_lists _ w _ B)].
    assert (HC : forall c x, sl_reach ltb eqb dflt c /\ shows c x -> contents c = x) by (intros c x [_ HS]; apply shows_iff, HS).
    pose proof (rel_contents _ contents (fun c => c) w _ HC B) as Y. cbn in Y. rewrite map_id in Y. exact Y.
Qed.

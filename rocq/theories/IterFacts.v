(** * Facts about kept iterators *)
From Verif Require Import PyBase Model Spec SpecFacts History ModelHeap HeapFacts ModelIter.
Local Unset Implicit Arguments.

Section Val.
  Context {V : Type}.
  Variable h : heap V.
  Variable rs : list ref.

  (** What an iterator has still to yield. *)
  Definition curval (cur : option inner) (x : list V) : Prop :=
    match cur with
    | None => x = []
    | Some (IFwd r i) => In r rs /\ x = skipn i (cell h r)
    | Some (IBack r k) => In r rs /\ k <= length (cell h r) /\ x = rev (firstn k (cell h r))
    end.
  Definition outval (o : outer) (l : list ref) : Prop :=
    match o with
    | OFwd i => l = skipn i rs
    | OBack k => k <= length rs /\ l = rev (firstn k rs)
    | OAt ix => mapR (getn rs) ix = Ok l
    | ODone => l = []
    end.
  Definition turn (back : bool) (r : ref) : list V := if back then rev (cell h r) else cell h r.
  Definition segval (s : seg) (x : list V) : Prop :=
    match s with
    | SAt r ix => In r rs /\ mapR (getn (cell h r)) ix = Ok x
    | SFlat o back cur => exists l y, outval o l /\ curval cur y /\ x = y ++ concat (map (turn back) l)
    end.
  Definition itval (it : iterator) (x : list V) : Prop := exists xs, Forall2 segval it xs /\ x = concat xs.

  Lemma mapR_in {A B} (f : A -> res B) ix : forall l, mapR f ix = Ok l -> forall y, In y l -> exists i, In i ix /\ f i = Ok y.
  Proof.
    induction ix as [|i ix IH]; cbn; intros l H y Hy; [apply ok_inj in H; subst; destruct Hy|].
    destruct (f i) as [b|] eqn:E; [|discriminate]. cbn in H. destruct (mapR f ix) as [t|] eqn:E2; [|discriminate]. cbn in H. apply ok_inj in H as <-.
    destruct Hy as [<-|Hy]; [exists i; auto|]. destruct (IH t eq_refl y Hy) as (j & Hj & Ej). exists j. auto.
  Qed.
  Lemma outval_in o l : outval o l -> forall r, In r l -> In r rs.
  Proof.
    destruct o as [i|k|ix|]; cbn.
    - intros -> r Hr. rewrite <- (firstn_skipn i rs). apply in_app_iff. auto.
    - intros [_ ->] r Hr. apply in_rev in Hr. rewrite <- (firstn_skipn k rs). apply in_app_iff. auto.
    - intros H r Hr. destruct (mapR_in _ _ _ H r Hr) as (i & _ & E). eapply getn_In, E.
    - intros -> r [].
  Qed.
  Lemma skipn_nth {A} (l : list A) : forall i, skipn i l = match nth_error l i with Some x => x :: skipn (S i) l | None => [] end.
  Proof. induction l as [|x l IH]; intros [|i]; try reflexivity. apply IH. Qed.
  Lemma firstn_nth {A} (l : list A) : forall k x, nth_error l k = Some x -> firstn (S k) l = firstn k l ++ [x].
  Proof. induction l as [|y l IH]; intros [|k] x H; cbn in *; try discriminate; [congruence|]. rewrite <- (IH k x H). reflexivity. Qed.

  Lemma inner_ok x y : curval (Some x) y ->
    match y with
    | [] => inner_next h x = None
    | v :: t => exists x', inner_next h x = Some (v, x') /\ curval (Some x') t
    end.
  Proof.
    destruct x as [r i|r k]; cbn [curval inner_next].
    - intros [Hr ->]. rewrite (skipn_nth _ i). destruct (nth_error (cell h r) i); [|reflexivity]. eexists. split; [reflexivity|]. split; [exact Hr|reflexivity].
    - intros (Hr & Hk & ->). destruct k as [|j]; [reflexivity|]. destruct (nth_error (cell h r) j) as [v|] eqn:E.
      + rewrite (firstn_nth _ _ _ E), rev_app_distr. cbn. eexists. split; [reflexivity|]. cbn. split; [exact Hr|]. split; [lia|reflexivity].
      + apply nth_error_None in E. lia.
  Qed.
  Lemma outer_ok o l : outval o l ->
    match l with
    | [] => exists o', outer_next rs o = (Ok None, o')
    | r :: t => exists o', outer_next rs o = (Ok (Some r), o') /\ outval o' t
    end.
  Proof.
    destruct o as [i|k|ix|]; cbn [outval outer_next].
    - intros ->. rewrite (skipn_nth _ i). destruct (nth_error rs i); [|eauto]. eexists. split; reflexivity.
    - intros (Hk & ->). destruct k as [|j]; [exists ODone; reflexivity|]. destruct (nth_error rs j) as [v|] eqn:E.
      + rewrite (firstn_nth _ _ _ E), rev_app_distr. cbn. eexists. split; [reflexivity|]. cbn. split; [lia|reflexivity].
      + apply nth_error_None in E. lia.
    - destruct ix as [|i ix]; cbn; [intros H; apply ok_inj in H as <-; eauto|]. destruct (getn rs i) as [r|]; [|discriminate]. cbn.
      destruct (mapR (getn rs) ix) as [t|] eqn:E; [|discriminate]. cbn. intros H. apply ok_inj in H as <-. eauto.
    - intros ->. eauto.
  Qed.
  Lemma enter_ok back r : In r rs -> curval (Some (enter h back r)) (turn back r).
  Proof.
    intros Hr. unfold enter, turn. destruct back; cbn; [|auto]. split; [exact Hr|]. split; [lia|]. rewrite firstn_all. reflexivity.
  Qed.

  Lemma flat_ok : forall fuel o back cur l y, outval o l -> curval cur y ->
    2 * length l + match cur with Some _ => 2 | None => 1 end <= fuel ->
    match y ++ concat (map (turn back) l) with
    | [] => flat_next h rs fuel o back cur = (Ok None, SFlat ODone back None)
    | v :: t => exists s', flat_next h rs fuel o back cur = (Ok (Some v), s') /\ segval s' t
    end.
  Proof.
    induction fuel as [|fuel IH]; intros o back cur l y Ho Hc Hf; [destruct cur; lia|]. cbn [flat_next]. destruct cur as [x|].
    - pose proof (inner_ok x y Hc) as Hx. destruct y as [|v t].
      + rewrite Hx. cbn [app]. apply (IH o back None l []); [exact Ho|reflexivity|lia].
      + destruct Hx as (x' & -> & Hx'). cbn [app]. eexists. split; [reflexivity|]. exists l, t. auto.
    - cbn in Hc. subst y. cbn [app]. pose proof (outer_ok o l Ho) as Hx. destruct l as [|r l].
      + destruct Hx as (o' & ->). reflexivity.
      + destruct Hx as (o' & -> & Ho'). cbn [map concat]. apply (IH o' back (Some (enter h back r)) l (turn back r)); [exact Ho'| |cbn in Hf; lia].
        apply enter_ok. eapply outval_in; [exact Ho|left; reflexivity].
  Qed.
  Lemma length_mapR {A B} (f : A -> res B) ix : forall l, mapR f ix = Ok l -> length l = length ix.
  Proof.
    induction ix as [|i ix IH]; cbn; intros l H; [apply ok_inj in H; subst; reflexivity|].
    destruct (f i) as [b|]; [|discriminate]. cbn in H. destruct (mapR f ix) as [t|] eqn:E2; [|discriminate]. cbn in H. apply ok_inj in H as <-.
    cbn. f_equal. apply IH. reflexivity.
  Qed.
  Lemma fuel_ok o l : outval o l -> 2 * length l + 2 <= flat_fuel rs o.
  Proof.
    unfold flat_fuel. destruct o as [i|k|ix|]; cbn [outval].
    - intros ->. rewrite skipn_length. lia.
    - intros [_ ->]. rewrite rev_length, firstn_length. lia.
    - intros H. apply length_mapR in H. lia.
    - intros ->. cbn. lia.
  Qed.
  Lemma seg_ok s x : segval s x ->
    match x with
    | [] => exists s', seg_next h rs s = (Ok None, s')
    | v :: t => exists s', seg_next h rs s = (Ok (Some v), s') /\ segval s' t
    end.
  Proof.
    destruct s as [r ix|o back cur]; cbn [segval seg_next].
    - intros [Hr H]. destruct ix as [|i ix]; cbn in H; [apply ok_inj in H as <-; eauto|]. destruct (getn (cell h r) i) as [v|]; [|discriminate]. cbn in H.
      destruct (mapR (getn (cell h r)) ix) as [t|] eqn:E; [|discriminate]. cbn in H. apply ok_inj in H as <-. cbn. eexists. split; [reflexivity|].
      split; [exact Hr|exact E].
    - intros (l & y & Ho & Hc & ->). pose proof (fuel_ok o l Ho) as Hf.
      pose proof (flat_ok (flat_fuel rs o) o back cur l y Ho Hc) as X. specialize (X ltac:(destruct cur; lia)).
      destruct (y ++ concat (map (turn back) l)); eauto.
  Qed.
  Lemma next_ok it : forall x, itval it x ->
    match x with
    | [] => next h rs it = (Ok None, [])
    | v :: t => exists it', next h rs it = (Ok (Some v), it') /\ itval it' t
    end.
  Proof.
    induction it as [|s it IH]; intros x (xs & HF & ->).
    - inversion HF. reflexivity.
    - inversion HF as [|? y ? ys Hs HF']. subst. cbn [concat next]. pose proof (seg_ok s y Hs) as X. destruct y as [|v t].
      + destruct X as (s' & ->). cbn [app]. apply IH. exists ys. auto.
      + destruct X as (s' & -> & Hs'). cbn [app]. eexists. split; [reflexivity|]. exists (t :: ys). split; [constructor; assumption|reflexivity].
  Qed.

  (** New iterators. *)
  Lemma iter_val : itval [SFlat (OFwd 0) false None] (concat (map (cell h) rs)).
  Proof. eexists [_]. split; [repeat constructor|cbn; rewrite app_nil_r; reflexivity]. exists rs, []. repeat split. Qed.
  Lemma reversed_val : itval [SFlat (OBack (length rs)) true None] (concat (map (@rev V) (rev (map (cell h) rs)))).
  Proof.
    eexists [_]. split; [repeat constructor|cbn; rewrite app_nil_r; reflexivity]. exists (rev rs), []. cbn. split; [split; [lia|rewrite firstn_all; reflexivity]|].
    split; [reflexivity|]. rewrite <- map_rev, map_map. reflexivity.
  Qed.
  Lemma mapR_rows ix : forall l, mapR (getn (map (cell h) rs)) ix = Ok l -> exists r, mapR (getn rs) ix = Ok r /\ l = map (cell h) r.
  Proof.
    induction ix as [|i ix IH]; cbn; intros l H; [apply ok_inj in H as <-; exists []; auto|]. rewrite getn_map in H.
    destruct (getn rs i) as [r|]; [|discriminate]. cbn in H. destruct (mapR (getn (map (cell h) rs)) ix) as [t|] eqn:E; [|discriminate].
    cbn in H. apply ok_inj in H as <-. destruct (IH t eq_refl) as (u & -> & ->). exists (r :: u). auto.
  Qed.
  Lemma seg_at r ix x : In r rs -> mapR (getn (cell h r)) ix = Ok x -> segval (SAt r ix) x. Proof. cbn. auto. Qed.
  Lemma pairs_val a b c d rv x : islice_pairs (map (cell h) rs) a b c d rv = Ok x ->
    exists it, it_pairs h rs a b c d rv = Ok it /\ itval it x.
  Proof.
    unfold islice_pairs, it_pairs. destruct (c <? a); [intros H; apply ok_inj in H as <-; exists []; split; [reflexivity|]; exists []; auto|].
    rewrite !getn_map. destruct (a =? c).
    - destruct (getn rs a) as [r|] eqn:Er; [|discriminate]. cbn. intros H. eexists. split; [reflexivity|]. exists [x].
      split; [|cbn; rewrite app_nil_r; reflexivity]. repeat constructor; [eapply getn_In, Er|exact H].
    - destruct (getn rs a) as [r|] eqn:Er; [|discriminate]. destruct (getn rs c) as [r'|] eqn:Er'; [|discriminate]. cbn [rbind].
      apply getn_In in Er, Er'. destruct (a + 1 =? c); destruct rv.
      + destruct (mapR (getn (cell h r')) _) as [y|] eqn:E1; [|discriminate]. destruct (mapR (getn (cell h r)) _) as [z|] eqn:E2; [|discriminate].
        cbn. intros H. apply ok_inj in H as <-. eexists. split; [reflexivity|]. exists [y; z]. split; [|cbn; rewrite app_nil_r; reflexivity].
        repeat constructor; assumption.
      + destruct (mapR (getn (cell h r)) _) as [y|] eqn:E1; [|discriminate]. destruct (mapR (getn (cell h r')) _) as [z|] eqn:E2; [|discriminate].
        cbn. intros H. apply ok_inj in H as <-. eexists. split; [reflexivity|]. exists [y; z]. split; [|cbn; rewrite app_nil_r; reflexivity].
        repeat constructor; assumption.
      + destruct (mapR (getn (map (cell h) rs)) _) as [u|] eqn:E0; [|discriminate]. apply mapR_rows in E0 as (q & Eq & ->).
        destruct (mapR (getn (cell h r')) _) as [y|] eqn:E1; [|discriminate]. destruct (mapR (getn (cell h r)) _) as [z|] eqn:E2; [|discriminate].
        cbn. intros H. apply ok_inj in H as <-. eexists. split; [reflexivity|]. exists [y; concat (map (@rev V) (map (cell h) q)); z].
        split; [|cbn; rewrite app_nil_r; reflexivity]. repeat constructor; try assumption. exists q, []. split; [exact Eq|]. split; [reflexivity|].
        rewrite map_map. reflexivity.
      + destruct (mapR (getn (map (cell h) rs)) _) as [u|] eqn:E0; [|discriminate]. apply mapR_rows in E0 as (q & Eq & ->).
        destruct (mapR (getn (cell h r)) _) as [y|] eqn:E1; [|discriminate]. destruct (mapR (getn (cell h r')) _) as [z|] eqn:E2; [|discriminate].
        cbn. intros H. apply ok_inj in H as <-. eexists. split; [reflexivity|]. exists [y; concat (map (cell h) q); z].
        split; [|cbn; rewrite app_nil_r; reflexivity]. repeat constructor; try assumption. exists q, []. split; [exact Eq|]. split; reflexivity.
  Qed.

  (** An iterator that has ended, on any state. *)
  Lemma next_nil : next h rs [] = (Ok None, []). Proof. reflexivity. Qed.
End Val.

(** Iterators look only at the internal lists of their object. *)
Lemma itval_ext {V} (h h' : heap V) rs it x : (forall r, In r rs -> cell h' r = cell h r) -> itval h rs it x -> itval h' rs it x.
Proof.
  intros H (xs & HF & ->). exists xs. split; [|reflexivity]. assert (HS : forall s y, segval h rs s y -> segval h' rs s y); [clear it xs HF|induction HF; constructor; auto].
  intros [r ix|o back cur] x; cbn.
  - intros [Hr E]. rewrite (H r Hr). auto.
  - intros (l & y & Ho & Hc & ->). exists l, y. split; [exact Ho|]. split.
    + destruct cur as [[r i|r k]|]; cbn in *; [| |exact Hc].
      * destruct Hc as [Hr ->]. rewrite (H r Hr). auto.
      * destruct Hc as (Hr & Hk & ->). rewrite (H r Hr). auto.
    + f_equal. f_equal. apply map_ext_in. intros r Hr. unfold turn. rewrite (H r (outval_in rs o l Ho r Hr)). reflexivity.
Qed.

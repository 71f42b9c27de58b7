(** * Proofs: one operation on a SortedDict object does what it does on a SortedDict value *)
From Verif Require Import PyBase Model Spec History Reach ListClass ClassSpec ModelSet SetSpec ModelDict DictSpec ModelObj ObjSpec ObjFacts
  ModelDObj DObjSpec.
Local Unset Implicit Arguments.

Section DObj.
  Context {S A B K : Type}.
  Variable T : listcls S A K.
  Variable eqb : A -> A -> bool.
  Variable veqb : B -> B -> bool.
  Notation H := (list S * dobj A B)%type.
  Notation SD := (sdict S A B).

  Definition qrep (h : list S) (o : dobj A B) (s : SD) : Prop :=
    q_items o = d_items s /\ nth_error h (q_list o) = Some (d_list s) /\ q_cached o = q_list o /\ q_exposed o = q_list o.
  (** Nothing but the list [r] changes. *)
  Definition qkeep (r : nat) (h h' : list S) : Prop :=
    length h <= length h' /\ forall j, j < length h -> j <> r -> nth_error h' j = nth_error h j.
  Definition qgrows (h h' : list S) : Prop :=
    length h <= length h' /\ forall j, j < length h -> nth_error h' j = nth_error h j.

  Lemma qkeep_refl : forall r h, qkeep r h h.
  Proof. intros. split; auto. Qed.
  Lemma qkeep_trans : forall r a b c, qkeep r a b -> qkeep r b c -> qkeep r a c.
  Proof. intros r a b c (A1 & A2) (B1 & B2). split; [lia|]. intros. rewrite B2 by (auto; lia). auto. Qed.
  Lemma qgrows_refl : forall h, qgrows h h.
  Proof. intros. split; auto. Qed.
  Lemma qgrows_app : forall h l, qgrows h (h ++ l).
  Proof. intros. split; [rewrite app_length; lia|]. intros. apply nth_error_app1. auto. Qed.
  Lemma qgrows_keep : forall r a b, qgrows a b -> qkeep r a b.
  Proof. intros r a b (A1 & A2). split; auto. Qed.
  Lemma qkeep_grows : forall r a b c, qgrows a b -> qkeep r b c -> length a <= r -> qgrows a c.
  Proof. intros r a b c (A1 & A2) (B1 & B2) L. split; [lia|]. intros. rewrite B2 by lia. auto. Qed.

  Definition QSim {X} (m : H -> X * H) (m' : SD -> X * SD) : Prop := forall h o s, qrep h o s ->
    exists a h' o' s', m (h, o) = (a, (h', o')) /\ m' s = (a, s') /\ qrep h' o' s' /\ q_list o' = q_list o /\ qkeep (q_list o) h h'.

  Lemma qsim_bind : forall X Y (m : M H X) (m' : M SD X) (k : X -> M H Y) k',
    QSim m m' -> (forall a, QSim (k a) (k' a)) -> QSim (bind m k) (bind m' k').
  Proof.
    intros X Y m m' k k' Hm Hk h o s R. destruct (Hm h o s R) as (a & h1 & o1 & s1 & E1 & E2 & R1 & L1 & F1).
    unfold bind. rewrite E1, E2. destruct a as [a|e].
    - destruct (Hk a h1 o1 s1 R1) as (b & h2 & o2 & s2 & E3 & E4 & R2 & L2 & F2).
      exists b, h2, o2, s2. rewrite E3, E4. split; [auto|split; [auto|split; [auto|split]]]; [congruence|].
      rewrite L1 in F2. eapply qkeep_trans; eauto.
    - exists (Err e), h1, o1, s1. split; [auto|split; [auto|split; [auto|split]]]; auto.
  Qed.
  Lemma qsim_pure : forall X (r : X), QSim (fun s => (r, s)) (fun s => (r, s)).
  Proof. intros X r h o s R. exists r, h, o, s. split; [auto|split; [auto|split; [auto|split]]]; auto using qkeep_refl. Qed.
  Lemma qsim_ret : forall X (a : X), QSim (ret a) (ret a).
  Proof. intros. apply qsim_pure. Qed.
  Lemma qsim_raise : forall X e, QSim (@raise _ X e) (raise e).
  Proof. intros. apply (qsim_pure (res X)). Qed.
  Lemma qsim_liftr : forall X (r : res X), QSim (liftr r) (liftr r).
  Proof. intros. apply (qsim_pure (res X)). Qed.
  Lemma qsim_if : forall X (b : bool) (m1 m2 : H -> X * H) m1' m2', QSim m1 m1' -> QSim m2 m2' ->
    QSim (if b then m1 else m2) (if b then m1' else m2').
  Proof. intros. destruct b; auto. Qed.
  Lemma qsim_dict : QSim q_dict items_of.
  Proof.
    intros h o s R. exists (Ok (d_items s)), h, o, s. split; [|split; [reflexivity|split; [auto|split]]]; auto using qkeep_refl.
    unfold q_dict, qself, bind, get, ret. simpl. replace (q_items o) with (d_items s); [auto|]. symmetry. apply R.
  Qed.
  Lemma qsim_put : forall x, QSim (q_put x) (put_items x).
  Proof.
    intros x h o s (R1 & R2 & R3 & R4). unfold q_put, put_items, modify.
    eexists _, _, _, _. split; [reflexivity|]. split; [reflexivity|]. split; [|split]; [|reflexivity|apply qkeep_refl].
    split; [reflexivity|]. simpl. auto.
  Qed.
  Lemma qsim_qcall : forall X (m : S -> X * S) dfl (f : dobj A B -> nat),
    (forall o, q_cached o = q_list o -> q_exposed o = q_list o -> f o = q_list o) ->
    QSim (fun s => qcall (f (snd s)) m dfl s) (fun s => let (a, l) := m (d_list s) in (a, mksd (d_items s) l)).
  Proof.
    intros X m dfl f Hf h o s (R1 & R2 & R3 & R4). unfold qcall. simpl. rewrite Hf by auto.
    rewrite (proj2 (getn_nth _ _ _ _) R2). destruct (m (d_list s)) as [a l] eqn:E.
    pose proof (nth_len _ _ _ _ R2) as L. rewrite setn_put by auto.
    eexists a, _, o, _. split; [reflexivity|]. split; [reflexivity|]. split; [|split; [reflexivity|]].
    - split; [auto|]. split; [simpl; apply put_same; auto|auto].
    - split; [rewrite put_length; auto|]. intros. apply put_other. auto.
  Qed.
  Lemma qsim_on : forall X (m : M S X), QSim (q_on m) (onkeys m).
  Proof. intros X m. exact (qsim_qcall _ m (@Err X) (@q_list A B) (fun _ _ _ => Logic.eq_refl)). Qed.
  Lemma qsim_call : forall X (m : M S X), QSim (q_call m) (onkeys m).
  Proof. intros X m. refine (qsim_qcall _ m (@Err X) (@q_cached A B) _). auto. Qed.
  Lemma qsim_forM : forall X (f : X -> M H unit) f' l, (forall a, QSim (f a) (f' a)) -> QSim (forM f l) (forM f' l).
  Proof. intros X f f' l Hf. induction l; simpl; [apply qsim_ret|]. apply qsim_bind; auto. Qed.
  Lemma qsim_mapM : forall X Y (f : X -> M H Y) f' l, (forall a, QSim (f a) (f' a)) -> QSim (mapM f l) (mapM f' l).
  Proof.
    intros X Y f f' l Hf. induction l; simpl; [apply qsim_ret|].
    apply qsim_bind; auto. intro. apply qsim_bind; auto. intro. apply qsim_ret.
  Qed.

  Ltac qsim := repeat (first
    [ apply qsim_ret | apply qsim_raise | apply qsim_liftr | apply qsim_dict | apply qsim_put | apply qsim_on | apply qsim_call
    | apply qsim_if | apply qsim_forM; intro | apply qsim_mapM; intro | apply qsim_bind; [|intro] ]).

  Lemma qsim_getitem : forall k, QSim (qd_getitem eqb k) (sd_getitem eqb k).
  Proof. intros. unfold qd_getitem, sd_getitem. qsim. Qed.
  Lemma qsim_delitem : forall k, QSim (q_delitem eqb k) (dict_delitem eqb k).
  Proof. intros. unfold q_delitem, dict_delitem. qsim. Qed.
  Lemma qsim_setitem : forall k v, QSim (qd_setitem T eqb k v) (sd_setitem T eqb k v).
  Proof. intros. unfold qd_setitem, sd_setitem. qsim. Qed.
  Lemma qsim_items : QSim (qd_items T eqb) (sd_items T eqb).
  Proof. unfold qd_items, sd_items, qd_iter, sd_iter. qsim; auto using qsim_getitem. Qed.
  Lemma qsim_values : QSim (qd_values T eqb) (sd_values T eqb).
  Proof. unfold qd_values, sd_values, qd_iter, sd_iter. qsim; auto using qsim_getitem. Qed.
  Lemma qsim_update : forall a, QSim (qd_update T eqb a) (sd_update T eqb a).
  Proof. intros. unfold qd_update, sd_update, q_keys_update, keys_update. qsim; auto using qsim_setitem. Qed.

  (** A new list. *)
  Lemma qattach_ok : forall (h : list S) (o : dobj A B),
    qd_attach T (h, o) =
      match l_new T [] with
      | Ok l => (Ok tt, (h ++ [l], mkdobj (q_items o) (length h) (length h) (length h)))
      | Err e => (Err e, (h, o))
      end.
  Proof. intros. unfold qd_attach, bind, liftr, get, modify. destruct (l_new T []); reflexivity. Qed.
  Lemma qrep_new : forall (h : list S) d l, qrep (h ++ [l]) (mkdobj d (length h) (length h) (length h)) (mksd d l).
  Proof. intros. split; [reflexivity|]. split; [|auto]. simpl. rewrite nth_error_app2, Nat.sub_diag; auto. Qed.

  Definition qborn (h : list S) (o : dobj A B) (want : res SD) (got : res (dobj A B) * H) : Prop :=
    match want with
    | Ok s => exists h' o', got = (Ok o', (h', o)) /\ qrep h' o' s /\ qgrows h h' /\ length h <= q_list o'
    | Err e => exists h', got = (Err e, (h', o)) /\ qgrows h h'
    end.
  Lemma qnew_ok : forall h o a, qborn h o (sd_new T eqb a) (q_construct T eqb a (h, o)).
  Proof.
    intros h o a. unfold q_construct, sd_new, qborn. simpl fst. unfold bind. rewrite qattach_ok. simpl q_items.
    destruct (l_new T []) as [l|e]; simpl.
    - destruct (qsim_update a _ _ _ (qrep_new h [] l)) as (r & h1 & o1 & s1 & E1 & E2 & R1 & L1 & F1).
      rewrite E1, E2. simpl in L1, F1.
      assert (G : qgrows h h1) by (eapply qkeep_grows; [apply qgrows_app|exact F1|auto]).
      destruct r as [u|e]; [|exists h1; auto].
      exists h1, o1. split; [auto|split; [auto|split; [auto|]]]. lia.
    - exists h. auto using qgrows_refl.
  Qed.

  Definition qstep_ok (h : list S) (o : dobj A B) (mk : bool) (want : dout A B * SD) (got : (dout A B * option (dobj A B)) * H) : Prop :=
    let (r, s') := want in
    if mk then
      exists h', qgrows h h' /\
        ((exists o', got = ((ONone, Some o'), (h', o)) /\ r = ONone /\ qrep h' o' s' /\ length h <= q_list o') \/
         (exists e, got = ((OExn e, None), (h', o)) /\ r = OExn e))
    else exists h' o', got = ((r, None), (h', o')) /\ qrep h' o' s' /\ q_list o' = q_list o /\ qkeep (q_list o) h h'.

  Lemma qsee_ok : forall X (inj : X -> dout A B) m m' h o s, QSim m m' -> qrep h o s ->
    qstep_ok h o false (dsee inj m' s) (qsee inj m (h, o)).
  Proof.
    intros X inj m m' h o s Hm R. destruct (Hm h o s R) as (a & h1 & o1 & s1 & E1 & E2 & R1).
    unfold qsee, dsee. rewrite E1, E2. destruct a; exists h1, o1; auto.
  Qed.
  Lemma qmade_ok : forall (m : M H (dobj A B)) (m' : M SD SD) h o s s1 want,
    m' s = (want, s1) -> qborn h o want (m (h, o)) -> qstep_ok h o true (drebind m' s) (qmade m (h, o)).
  Proof.
    intros m m' h o s s1 want E X. unfold drebind, qmade. rewrite E. destruct want as [x|e]; simpl in X.
    - destruct X as (h' & o' & E1 & R & G & L). rewrite E1. simpl. exists h'. split; [auto|]. left. exists o'. auto.
    - destruct X as (h' & E1 & G). rewrite E1. simpl. exists h'. split; [auto|]. right. exists e. auto.
  Qed.

  (** Reading the items changes nothing. *)
  Lemma read_items : iter_reads T -> forall s : SD, snd (sd_items T eqb s) = s.
  Proof.
    intros I s. unfold sd_items, sd_iter, onkeys, zoom, bind. specialize (I (d_list s)).
    destruct (l_iter T (d_list s)) as [[ks|e] l]; simpl in *; subst l; [|destruct s; reflexivity].
    replace (mksd (d_items s) (d_list s)) with s by (destruct s; reflexivity).
    induction ks as [|k ks IH]; [reflexivity|]. simpl.
    unfold sd_getitem, items_of, bind, get, ret, liftr in *. simpl in *.
    destruct (d_get eqb k (d_items s)); simpl; [|reflexivity].
    match goal with |- context [mapM ?f ?l s] => destruct (mapM f l s) as [[y|e] s1]; simpl in *; auto end.
  Qed.
  Lemma items_same : iter_reads T -> forall h o s, qrep h o s ->
    qd_items T eqb (h, o) = (fst (sd_items T eqb s), (h, o)).
  Proof.
    intros I h o s R. pose proof R as (R1 & R2 & R3 & R4).
    assert (EI : qd_iter T (h, o) = (fst (l_iter T (d_list s)), (h, o))).
    { unfold qd_iter, q_call, qself, qcall, bind, get, ret. simpl. rewrite R3, (proj2 (getn_nth _ _ _ _) R2).
      specialize (I (d_list s)). destruct (l_iter T (d_list s)) as [a l]. simpl in *. subst l.
      rewrite setn_put by (eapply nth_len; eauto). rewrite put_self by auto. reflexivity. }
    unfold qd_items, sd_items. unfold bind at 1. unfold bind at 2. rewrite EI.
    assert (EV : sd_iter T s = (fst (l_iter T (d_list s)), s)).
    { unfold sd_iter, onkeys, zoom. specialize (I (d_list s)). destruct (l_iter T (d_list s)). simpl in *. subst. destruct s; reflexivity. }
    rewrite EV. destruct (fst (l_iter T (d_list s))) as [ks|e]; [|reflexivity].
    clear EI EV. induction ks as [|k ks IH]; [reflexivity|]. simpl.
    unfold sd_getitem, qd_getitem, q_dict, qself, items_of, bind, get, ret, liftr in *. simpl in *. rewrite R1 in *.
    destruct (d_get eqb k (d_items s)); simpl; [|reflexivity].
    rewrite IH. match goal with |- context [mapM ?f ?l s] => destruct (mapM f l s) as [[y|e] s1]; reflexivity end.
  Qed.

  Lemma qdo_ok : iter_reads T -> forall op h o s, qrep h o s ->
    qstep_ok h o (dmakes op) (sd_step T eqb veqb op s) (qd_do T eqb veqb op (h, o)).
  Proof.
    intros I op h o s R.
    assert (EI : sd_items T eqb s = (fst (sd_items T eqb s), s))
      by (rewrite <- (read_items I s) at 3; destruct (sd_items T eqb s); reflexivity).
    assert (MK : forall f : list (A * B) -> darg A B,
      qstep_ok h o true (drebind (l <- sd_items T eqb ;; liftr (sd_new T eqb (f l))) s)
        (qmade (l <- qd_items T eqb ;; q_construct T eqb (f l)) (h, o))).
    { intro f. destruct (fst (sd_items T eqb s)) as [l|e] eqn:EL.
      - eapply qmade_ok with (want := sd_new T eqb (f l)) (s1 := s).
        + unfold bind. rewrite EI. reflexivity.
        + unfold bind. rewrite (items_same I h o s R), EL. apply qnew_ok.
      - eapply qmade_ok with (want := Err e) (s1 := s).
        + unfold bind. rewrite EI. reflexivity.
        + unfold bind. rewrite (items_same I h o s R), EL. exists h. auto using qgrows_refl. }
    destruct op; simpl dmakes; cbv iota; unfold sd_step, qd_do; try (apply MK);
      try (apply qsee_ok; [|exact R]; auto using qsim_setitem, qsim_getitem, qsim_update, qsim_items, qsim_values;
        unfold qd_delitem, sd_delitem, qd_get, sd_get, qd_contains, sd_contains, qd_len, sd_len, qd_iter, sd_iter, qd_reversed, sd_reversed,
          qd_clear, sd_clear, qd_pop, sd_pop, qd_popitem, sd_popitem, qd_peekitem, sd_peekitem, qd_setdefault, sd_setdefault,
          sd_ior, qkv_get, kv_get, qkv_slice, kv_slice, qiv_get, iv_get, qiv_slice, iv_slice, qvv_get, vv_get, qvv_slice, vv_slice,
          qview_del, view_del, qview_del_slice, view_del_slice, qview_reversed, view_reversed, qiv_contains, iv_contains,
          qvv_contains, vv_contains, qd_eq, sd_eq, qd_len, sd_len; qsim;
        auto using qsim_getitem, qsim_delitem, qsim_update, qsim_values; fail).
    - apply qsee_ok; [|exact R]. unfold qd_pop, sd_pop. destruct default; qsim; auto using qsim_getitem, qsim_delitem.
    - unfold qd_reduce, sd_reduce. destruct insertion.
      + eapply qmade_ok with (want := sd_new T eqb (ADict (d_items s))) (s1 := s); [reflexivity|].
        unfold q_dict, qself, bind, get, ret. simpl. replace (q_items o) with (d_items s) by (symmetry; apply R). apply qnew_ok.
      + apply (MK ADict).
    - destruct (qsim_qcall _ (l_fwd T f) (@RExn A) (@q_exposed A B) (fun _ _ E => E) h o s R) as (a & h1 & o1 & s1 & E1 & E2 & R1).
      unfold qd_fwd, sd_fwd. rewrite E1, E2. exists h1, o1. auto.
  Qed.
End DObj.

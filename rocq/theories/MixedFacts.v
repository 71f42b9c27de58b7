(** * The mixed world on the heap against the mixed world of values *)
From Verif Require Import PyBase Model Spec SpecFacts History Reach ListProps ModelHeap ModelKHeap ModelMixed HeapSpec MixedSpec
  HeapFacts HeapSim HeapSim2 HeapProps KHeapFacts KHeapSim KHeapSim2.
Local Unset Implicit Arguments.

Section KObs.
  Context {V : Type}.
  Variables lt eq : V -> V -> res bool.
  Variable kf : V -> res V.
  Variable dflt : nat.
  Notation ST := (heap V * khsl V)%type.

  Definition kfollows (s : ST) (p : out V * ST) (q : out V * skl V V) : Prop :=
    fst p = fst q /\ kview (snd p) = snd q /\ kgood (snd p) /\ kframe s (snd p).
  Lemma kfollows_obs_at {A} (inj : A -> out V) m (hm : M ST A) (P : ST -> Prop) s : kgood s -> P s -> (forall n, ksim n P ksame m hm) ->
    kfollows s (observe inj hm s) (observe inj m (kview s)).
  Proof.
    intros HG HP H. destruct (H (length (fst s)) s HG (le_n _) HP) as (E & G & F & X). unfold kfollows, observe.
    destruct (m (kview s)) as [r c], (hm s) as [r' s']. cbn in *. destruct r as [a|e], r' as [b|e']; try contradiction; cbn;
      (split; [unfold ksame in X; congruence|]; split; [exact E|]; split; [exact G|exact F]).
  Qed.
  Lemma kfollows_obs {A} (inj : A -> out V) m (hm : M ST A) s : kgood s -> (forall n, ksim n kany ksame m hm) ->
    kfollows s (observe inj hm s) (observe inj m (kview s)).
  Proof. intros HG H. apply (kfollows_obs_at inj m hm kany); [exact HG|exact I|exact H]. Qed.
  Lemma kstep_follows o s : kgood s -> match o with KList o => simple_op o | _ => True end ->
    kfollows s (k_step lt eq kf o s) (skl_step lt eq lt eq kf dflt o (kview s)).
  Proof.
    intros HG Ho. destruct o as [o| | |]; [destruct o; try destruct Ho|..]; cbn [k_step skl_step skl_lstep]; apply kfollows_obs; try exact HG; intros base.
    - apply ksim_add.
    - apply ksim_clear.
    - apply ksim_discard.
    - apply ksim_remove.
    - apply ksim_reading, kkeeps_contains.
    - apply ksim_inherit, keeps_getitem.
    - apply ksim_delitem.
    - apply ksim_delitem_slice.
    - apply ksim_pop.
    - apply ksim_inherit. keep.
    - apply ksim_inherit. keep.
    - apply ksim_inherit. keep.
    - apply ksim_reading, kkeeps_bisect_left.
    - apply ksim_reading, kkeeps_bisect_right.
    - apply ksim_reading, kkeeps_count.
    - apply ksim_reading, kkeeps_index.
    - apply ksim_reading, kkeeps_irange.
    - apply ksim_inherit, keeps_islice.
    - apply ksim_reset.
    - apply ksim_imul.
    - apply ksim_raise.
    - apply ksim_reading, kkeeps_bisect_key_left.
    - apply ksim_reading, kkeeps_bisect_key_right.
    - apply ksim_reading, kkeeps_irange_key.
  Qed.
End KObs.

Section Mixed.
  Context {V : Type}.
  Variables lt eq : V -> V -> res bool.
  Variable kfn : nat -> V -> res V.
  Variable dflt : nat.
  Notation ST := (heap V * mobj V)%type.

  Definition mgood (s : ST) : Prop := NoDup (mrefs (snd s)) /\ Forall (fun r => r < length (fst s)) (mrefs (snd s)).
  Definition mframe (s s' : ST) : Prop :=
    length (fst s) <= length (fst s') /\
    (forall r, r < length (fst s) -> ~ In r (mrefs (snd s)) -> cell (fst s') r = cell (fst s) r) /\
    (forall r, In r (mrefs (snd s')) -> In r (mrefs (snd s)) \/ length (fst s) <= r).
  Lemma mview_local (h h' : heap V) o : (forall r, In r (mrefs o) -> cell h' r = cell h r) -> mview (h', o) = mview (h, o).
  Proof. destruct o as [o|k o]; intros H; unfold mview; cbn [fst snd]; f_equal; [apply view_local|apply kview_local]; exact H. Qed.

  Definition mfollows (s : ST) (p : out V * ST) (q : out V * mval V) : Prop :=
    fst p = fst q /\ mview (snd p) = snd q /\ mgood (snd p) /\ mframe s (snd p).
  Lemma mfollows_list h o p q pq (x : out V * core V V) : follows (h, o) (p (h, o)) x -> pq = (fst x, VList (snd x)) -> mfollows (h, OList o) (m_do p q (h, OList o)) pq.
  Proof.
    intros (E1 & E2 & HG & HF) ->. unfold m_do. cbn [fst snd]. destruct (p (h, o)) as [r [h' o']]. unfold mfollows. cbn [fst snd] in *.
    split; [exact E1|]. split; [unfold mview; cbn [fst snd]; rewrite E2; reflexivity|]. split; [exact HG|exact HF].
  Qed.
  Lemma mfollows_key h k o p q pq (x : out V * skl V V) : kfollows (h, o) (q k (h, o)) x -> pq = (fst x, VKey k (snd x)) -> mfollows (h, OKey k o) (m_do p q (h, OKey k o)) pq.
  Proof.
    intros (E1 & E2 & HG & HF) ->. unfold m_do. cbn [fst snd]. destruct (q k (h, o)) as [r [h' o']]. unfold mfollows. cbn [fst snd] in *.
    split; [exact E1|]. split; [unfold mview; cbn [fst snd]; rewrite E2; reflexivity|]. split; [exact HG|exact HF].
  Qed.
  Lemma mstep_follows o s : mgood s -> match o with KList o => simple_op o | _ => True end ->
    mfollows s (m_step lt eq kfn o s) (v_step lt eq kfn dflt o (mview s)).
  Proof.
    destruct s as [h [ob|k ob]]; intros HG Ho; unfold m_step, mview; cbn [fst snd v_step].
    - destruct o as [o|x|x|mn mx a b r].
      1:{ eapply mfollows_list; [apply (step_follows lt eq dflt o (h, ob) HG Ho)|]. destruct (sl_step lt eq dflt o (view (h, ob))); reflexivity. }
      all: apply (mfollows_list h ob _ _ _ (observe (@RNat V) (raise AttributeError) (view (h, ob)))); [|reflexivity];
        apply follows_obs; [exact HG|]; intros n; apply sim_raise.
    - eapply mfollows_key; [apply (kstep_follows lt eq (keyof kfn k) dflt o (h, ob) HG Ho)|]. destruct (skl_step lt eq lt eq (keyof kfn k) dflt o (kview (h, ob))); reflexivity.
  Qed.
  Lemma mupdate_follows x v s : mgood s -> elems (fst s) x = v ->
    mfollows s (m_update lt kfn x s) (v_step lt eq kfn dflt (KList (LUpdate v)) (mview s)).
  Proof.
    destruct s as [h [ob|k ob]]; intros HG Ho; unfold m_update, mview; cbn [fst snd v_step] in *.
    - eapply mfollows_list; [apply (follows_obs_at runit (sl_update lt v) _ (gives x v) (h, ob) HG Ho); intros n; apply sim_update|].
      cbn [sl_step]. destruct (observe runit (sl_update lt v) (view (h, ob))); reflexivity.
    - eapply mfollows_key; [apply (kfollows_obs_at runit (skl_update lt (keyof kfn k) v) _ (kgives x v) (h, ob) HG Ho); intros n; apply ksim_update|].
      cbn [skl_step skl_lstep]. destruct (observe runit (skl_update lt (keyof kfn k) v) (kview (h, ob))); reflexivity.
  Qed.
  Lemma compare_same op l (c : core V V) : snd (compare lt eq op l c) = c.
  Proof.
    unfold compare, bind, get. destruct (negb _ && _); [reflexivity|]. destruct (negb _ && _); [reflexivity|]. reflexivity.
  Qed.
  Lemma mcompare_follows op l s : mgood s ->
    mfollows s (m_compare lt eq op l s) (fst (observe (@RBool V) (compare lt eq op l) (v_core (mview s))), mview s).
  Proof.
    destruct s as [h [ob|k ob]]; intros HG; unfold m_compare, mview; cbn [fst snd v_core] in *.
    - eapply mfollows_list; [apply (follows_obs (@RBool V) (compare lt eq op l) _ (h, ob) HG); intros n; apply sim_reading, keeps_compare|].
      pose proof (compare_same op l (view (h, ob))) as E. unfold observe. destruct (compare lt eq op l (view (h, ob))) as [[r|r] c]; cbn [snd] in E; subst c; reflexivity.
    - eapply mfollows_key; [apply (kfollows_obs (@RBool V) (oncore (skl_vt lt (keyof kfn k)) (compare lt eq op l)) _ (h, ob) HG); intros n; apply ksim_inherit, keeps_compare|].
      pose proof (compare_same op l (kc (kview (h, ob)))) as E. unfold observe. rewrite oncore_skl.
      destruct (compare lt eq op l (kc (kview (h, ob)))) as [[r|r] c]; cbn [fst snd] in *; subst c; destruct (kview (h, ob)); reflexivity.
  Qed.

  (** ** New objects *)
  Definition mmakes (s : ST) (p : res (mobj V) * ST) (c : res (mval V)) : Prop :=
    mview (snd p) = mview s /\ mgood (snd p) /\ mframe s (snd p) /\
    match c, fst p with
    | Ok x, Ok o => mview (fst (snd p), o) = x /\ mgood (fst (snd p), o) /\
        forall r, In r (mrefs o) -> length (fst s) <= r /\ ~ In r (mrefs (snd (snd p)))
    | Err e, Err e' => e = e'
    | _, _ => False
    end.
  Lemma list_makes h o (P : _ -> Prop) m hm q l : good (h, o) -> (forall n, sim n P (newobj n) m hm) -> P (h, o) ->
    m (view (h, o)) = liftr (sl_new lt dflt l) (view (h, o)) ->
    mmakes (h, OList o) (m_do (as_list hm) q (h, OList o)) (v_fresh lt kfn dflt CList l).
  Proof.
    intros HG Hs HP Em. destruct (Hs (length h) (h, o) HG (le_n _) HP) as (E & G & F & X). rewrite Em in E, X.
    unfold m_do, as_list, bind, ret. cbn [fst snd]. unfold mmakes, liftr, v_fresh in *. cbn [fst snd] in *.
    destruct (hm (h, o)) as [rr [h' o1]]. cbn [fst snd] in *.
    destruct rr as [o2|e2], (sl_new lt dflt l) as [c|e]; try contradiction; cbn [fst snd rbind];
      (split; [unfold mview; cbn [fst snd]; rewrite E; reflexivity|]; split; [exact G|]; split; [exact F|]); [|exact X].
    destruct X as (X1 & X2 & X3). split; [unfold mview; cbn [fst snd] in *; rewrite X1; reflexivity|]. split; [exact X2|exact X3].
  Qed.
  Lemma key_makes h k o k' (P : _ -> Prop) m hm p l : kgood (h, o) -> (forall n, ksim n P (knewobj n) m (hm k)) -> P (h, o) ->
    m (kview (h, o)) = liftr (skl_new lt (keyof kfn k') dflt l) (kview (h, o)) ->
    mmakes (h, OKey k o) (m_do p (fun k => as_key (k' ) (hm k)) (h, OKey k o)) (v_fresh lt kfn dflt (CKey k') l).
  Proof.
    intros HG Hs HP Em. destruct (Hs (length h) (h, o) HG (le_n _) HP) as (E & G & F & X). rewrite Em in E, X.
    unfold m_do, as_key, bind, ret. cbn [fst snd]. unfold mmakes, liftr, v_fresh in *. cbn [fst snd] in *.
    destruct (hm k (h, o)) as [rr [h' o1]]. cbn [fst snd] in *.
    destruct rr as [o2|e2], (skl_new lt (keyof kfn k') dflt l) as [c|e]; try contradiction; cbn [fst snd rbind];
      (split; [unfold mview; cbn [fst snd]; rewrite E; reflexivity|]; split; [exact G|]; split; [exact F|]); [|exact X].
    destruct X as (X1 & X2 & X3). split; [unfold mview; cbn [fst snd] in *; rewrite X1; reflexivity|]. split; [exact X2|exact X3].
  Qed.
  Lemma key_makes_same h k o (P : _ -> Prop) m hm p l : kgood (h, o) -> (forall n, ksim n P (knewobj n) m (hm k)) -> P (h, o) ->
    m (kview (h, o)) = liftr (skl_new lt (keyof kfn k) dflt l) (kview (h, o)) ->
    mmakes (h, OKey k o) (m_do p (fun k => as_key k (hm k)) (h, OKey k o)) (v_fresh lt kfn dflt (CKey k) l).
  Proof. intros HG Hs HP Em. exact (key_makes h k o k P m hm p l HG Hs HP Em). Qed.

  Definition hin (a : harg) (h : heap V) : Prop := match a with HList r => r < length h | HRows rs => Forall (fun r => r < length h) rs end.
  Lemma mcopy_makes s : mgood s -> mmakes s (m_copy lt kfn dflt s) (v_fresh lt kfn dflt (v_kind (mview s)) (v_cont (mview s))).
  Proof.
    destruct s as [h [o|k o]]; intros HG; unfold m_copy.
    - eapply (list_makes h o any); [exact HG|intros n; apply sim_copy|exact I|reflexivity].
    - eapply (key_makes_same h k o kany _ (fun k => k_copy lt (keyof kfn k) dflt)); [exact HG|intros n; apply ksim_copy|exact I|reflexivity].
  Qed.
  Lemma mmul_makes m s : mgood s -> mmakes s (m_mul lt kfn dflt m s) (v_fresh lt kfn dflt (v_kind (mview s)) (list_mul (v_cont (mview s)) m)).
  Proof.
    destruct s as [h [o|k o]]; intros HG; unfold m_mul.
    - eapply (list_makes h o any); [exact HG|intros n; apply sim_mul|exact I|reflexivity].
    - eapply (key_makes_same h k o kany _ (fun k => k_mul lt (keyof kfn k) dflt m)); [exact HG|intros n; apply ksim_mul|exact I|reflexivity].
  Qed.
  Lemma mreduce_makes s : mgood s -> mmakes s (m_reduce lt kfn dflt s) (v_fresh lt kfn dflt (v_kind (mview s)) (v_cont (mview s))).
  Proof.
    destruct s as [h [o|k o]]; intros HG; unfold m_reduce.
    - eapply (list_makes h o any); [exact HG|intros n; apply sim_reduce|exact I|reflexivity].
    - eapply (key_makes_same h k o kany _ (fun k => k_reduce lt (keyof kfn k) dflt)); [exact HG|intros n; apply ksim_reduce|exact I|reflexivity].
  Qed.
  Lemma mrmul_makes m s : mgood s ->
    mmakes s (m_rmul lt kfn dflt m s) (v_fresh lt kfn dflt (fst (q_rmul v_cont v_kind m (mview s))) (snd (q_rmul v_cont v_kind m (mview s)))).
  Proof.
    destruct s as [h [o|k o]]; intros HG; unfold m_rmul.
    - eapply (list_makes h o any); [exact HG|intros n; apply sim_mul|exact I|reflexivity].
    - eapply (key_makes h k o None kany _ (fun _ => k_mul lt (keyof kfn None) dflt m)); [exact HG|intros n; apply ksim_mul|exact I|reflexivity].
  Qed.
  Lemma mplus_makes x v s : mgood s -> elems (fst s) x = v -> hin x (fst s) ->
    mmakes s (m_plus lt kfn dflt x s) (v_fresh lt kfn dflt (v_kind (mview s)) (v_cont (mview s) ++ v)).
  Proof.
    destruct s as [h [o|k o]]; intros HG Hv Hi; unfold m_plus; cbn [fst snd] in *.
    - eapply (list_makes h o (fun s => gives x v s /\ arg_in x s) (sl_plus lt dflt v)); [exact HG|intros n; apply sim_plus|split; [exact Hv|destruct x; exact Hi]|reflexivity].
    - eapply (key_makes_same h k o (fun s => kgives x v s /\ karg_in x s) (skl_plus lt (keyof kfn k) dflt v) (fun k => k_plus lt (keyof kfn k) dflt x));
        [exact HG|intros n; apply ksim_plus|split; [exact Hv|destruct x; exact Hi]|reflexivity].
  Qed.
  Lemma mnew_makes k x v h : elems h x = v ->
    let p := m_new lt kfn dflt k x h in
    length h <= length (snd p) /\ (forall r, r < length h -> cell (snd p) r = cell h r) /\
    match v_fresh lt kfn dflt (match k with None => CList | Some k => CKey k end) v, fst p with
    | Ok c, Ok o => mview (snd p, o) = c /\ mgood (snd p, o) /\ forall r, In r (mrefs o) -> length h <= r
    | Err e, Err e' => e = e'
    | _, _ => False
    end.
  Proof.
    intros Hv. destruct k as [k|]; cbn [m_new v_fresh].
    - destruct (knew_sim lt (keyof kfn k) dflt x v h Hv) as (L & C & X). destruct (k_new lt (keyof kfn k) dflt x h) as [[o|e] h']; cbn [fst snd rbind] in *;
        (split; [exact L|]; split; [exact C|]); destruct (skl_new lt (keyof kfn k) dflt v) as [c|e']; try contradiction; cbn [rbind]; [|exact X].
      destruct X as (X1 & X2 & X3). split; [unfold mview; cbn [fst snd]; rewrite X1; reflexivity|]. split; [exact X2|exact X3].
    - destruct (new_sim lt dflt x v h Hv) as (L & C & X). destruct (h_new lt dflt x h) as [[o|e] h']; cbn [fst snd rbind] in *;
        (split; [exact L|]; split; [exact C|]); destruct (sl_new lt dflt v) as [c|e']; try contradiction; cbn [rbind]; [|exact X].
      destruct X as (X1 & X2 & X3). split; [unfold mview; cbn [fst snd]; rewrite X1; reflexivity|]. split; [exact X2|exact X3].
  Qed.
  (** ** Slices *)
  Definition mgives (s : ST) (p : res ref * ST) (q : out V * mval V) : Prop :=
    mview (snd p) = snd q /\ mgood (snd p) /\ mframe s (snd p) /\
    match fst p, fst q with
    | Ok b, RList v => cell (fst (snd p)) b = v /\ b < length (fst (snd p)) /\ ~ In b (mrefs (snd (snd p))) /\ length (fst s) <= b
    | Err e, RExn e' => e = e'
    | _, _ => False
    end.
  Lemma mslice_gives sl s : mgood s -> mgives s (m_slice sl s) (v_step lt eq kfn dflt (KList (LSlice sl)) (mview s)).
  Proof.
    destruct s as [h [o|k o]]; intros HG; unfold m_slice, m_do, mview, mgives; cbn [fst snd v_step sl_step skl_step skl_lstep]; unfold observe.
    - destruct (sim_getitem_slice (length h) sl (h, o) HG (le_n _) I) as (E & G & F & X).
      destruct (h_getitem_slice sl (h, o)) as [rr [h' o1]], (getitem_slice sl (view (h, o))) as [[v|e] c]; cbn [fst snd] in *; subst c;
      (split; [reflexivity|]; split; [exact G|]; split; [exact F|]); destruct rr as [b|e']; try contradiction; [exact X|symmetry; exact X].
    - destruct (ksim_getitem_slice lt (keyof kfn k) (length h) sl (h, o) HG (le_n _) I) as (E & G & F & X).
      destruct (k_getitem_slice sl (h, o)) as [rr [h' o1]], (oncore (skl_vt lt (keyof kfn k)) (getitem_slice sl) (kview (h, o))) as [[v|e] c]; cbn [fst snd] in *; subst c;
      (split; [reflexivity|]; split; [exact G|]; split; [exact F|]); destruct rr as [b|e']; try contradiction; [exact X|symmetry; exact X].
  Qed.

  Lemma nth_set_mobj (l : list (mobj V)) : forall i j o, i < length l -> nth_error (set_mobj l i o) j = if i =? j then Some o else nth_error l j.
  Proof. induction l as [|x l IH]; intros [|i] [|j] o H; cbn in *; try lia; auto. apply IH. lia. Qed.
  Lemma length_set_mobj (l : list (mobj V)) : forall i o, length (set_mobj l i o) = length l.
  Proof. induction l as [|x l IH]; intros [|i] o; cbn; auto. Qed.
  Notation RW := (list (mval V) * list (list V))%type.

  Definition holds (h : heap V) (o : mobj V) (l : mval V) : Prop := mview (h, o) = l.
  Record rel (w : mworld V) (r : RW) : Prop := mkrel {
    rel_good : forall i o, nth_error (m_objs w) i = Some o -> mgood (m_heap w, o);
    rel_apart : forall i j o o', i <> j -> nth_error (m_objs w) i = Some o -> nth_error (m_objs w) j = Some o' ->
      forall x, In x (mrefs o) -> ~ In x (mrefs o');
    rel_user : forall i o x, nth_error (m_objs w) i = Some o -> In x (mrefs o) -> ~ In x (m_user w);
    rel_nodup : NoDup (m_user w);
    rel_bound : Forall (fun x => x < length (m_heap w)) (m_user w);
    rel_len : length (m_objs w) = length (fst r);
    rel_holds : forall i o l, nth_error (m_objs w) i = Some o -> nth_error (fst r) i = Some l -> holds (m_heap w) o l;
    rel_lists : map (cell (m_heap w)) (m_user w) = snd r }.

  Lemma rel_init : rel mw_init ([], []).
  Proof. constructor; cbn; try (intros [|]; discriminate); try constructor; try reflexivity. Qed.

  Lemma holds_ext h h' o l : (forall x, In x (mrefs o) -> cell h' x = cell h x) -> holds h o l -> holds h' o l.
  Proof. intros H. unfold holds. rewrite (mview_local h h' o H). auto. Qed.

  (** One object has moved on. *)
  Lemma rel_step w r i o l h' o' l' : rel w r -> nth_error (m_objs w) i = Some o -> nth_error (fst r) i = Some l ->
    mgood (h', o') -> mframe (m_heap w, o) (h', o') -> holds h' o' l' ->
    rel (mkmworld h' (set_mobj (m_objs w) i o') (m_user w)) (replace (fst r) i l', snd r).
  Proof.
    intros R Ho Hl HG (FL & FC & FR) HH. cbn [fst snd] in *.
    assert (Hi : i < length (m_objs w)) by (apply nth_error_Some; congruence).
    assert (Hi' : i < length (fst r)) by (apply nth_error_Some; congruence).
    assert (Hlt : forall j p x, nth_error (m_objs w) j = Some p -> In x (mrefs p) -> x < length (m_heap w)).
    { intros j p x Hp Hx. destruct (rel_good w r R j p Hp) as [_ HF]. rewrite Forall_forall in HF. apply HF, Hx. }
    assert (Hc : forall j p x, i <> j -> nth_error (m_objs w) j = Some p -> In x (mrefs p) -> cell h' x = cell (m_heap w) x).
    { intros j p x Hn Hp Hx. apply FC; [eapply Hlt; eassumption|]. apply (rel_apart w r R j i p o); auto. }
    constructor; cbn [m_objs m_heap m_user fst snd].
    - intros j p Hp. rewrite nth_set_mobj in Hp by exact Hi. destruct (Nat.eqb_spec i j) as [->|Hn].
      + injection Hp as <-. exact HG.
      + destruct (rel_good w r R j p Hp) as [HN HF]. split; [exact HN|]. cbn in *. eapply Forall_impl; [|exact HF]. cbn. intros; lia.
    - intros j k p q Hn Hp Hq x Hx. rewrite nth_set_mobj in Hp, Hq by exact Hi.
      destruct (Nat.eqb_spec i j) as [Eij|Hij], (Nat.eqb_spec i k) as [Eik|Hik]; try (exfalso; congruence); subst.
      + injection Hp as <-. intros Hq'. destruct (FR x Hx) as [H|H].
        * exact (rel_apart w r R j k o q Hn Ho Hq x H Hq').
        * specialize (Hlt k q x Hq Hq'). lia.
      + injection Hq as <-. intros Hx'. destruct (FR x Hx') as [H|H].
        * exact (rel_apart w r R j k p o Hn Hp Ho x Hx H).
        * specialize (Hlt j p x Hp Hx). lia.
      + exact (rel_apart w r R j k p q Hn Hp Hq x Hx).
    - intros j p x Hp Hx Hu. rewrite nth_set_mobj in Hp by exact Hi. destruct (Nat.eqb_spec i j) as [->|Hn].
      + injection Hp as <-. destruct (FR x Hx) as [H|H]; [exact (rel_user w r R j o x Ho H Hu)|].
        pose proof (rel_bound w r R) as HB. rewrite Forall_forall in HB. specialize (HB x Hu). lia.
      + exact (rel_user w r R j p x Hp Hx Hu).
    - apply (rel_nodup w r R).
    - eapply Forall_impl; [|apply (rel_bound w r R)]. cbn. intros; lia.
    - rewrite length_set_mobj, length_replace. apply (rel_len w r R).
    - intros j p q Hp Hq. rewrite nth_set_mobj in Hp by exact Hi. rewrite nth_replace in Hq by exact Hi'.
      destruct (Nat.eqb_spec i j) as [->|Hn].
      + injection Hp as <-. injection Hq as <-. exact HH.
      + eapply holds_ext; [|exact (rel_holds w r R j p q Hp Hq)]. intros x Hx. exact (Hc j p x Hn Hp Hx).
    - rewrite <- (rel_lists w r R). apply cells_same. intros x Hx. apply FC.
      + pose proof (rel_bound w r R) as HB. rewrite Forall_forall in HB. apply HB, Hx.
      + intros H. exact (rel_user w r R i o x Ho H Hx).
  Qed.
  (** A new object. *)
  Lemma rel_push w r o' l' : rel w r -> mgood (m_heap w, o') ->
    (forall j p x, nth_error (m_objs w) j = Some p -> In x (mrefs p) -> ~ In x (mrefs o')) ->
    (forall x, In x (mrefs o') -> ~ In x (m_user w)) -> holds (m_heap w) o' l' ->
    rel (mkmworld (m_heap w) (m_objs w ++ [o']) (m_user w)) (fst r ++ [l'], snd r).
  Proof.
    intros R HG HA HU HH.
    assert (Hx : forall {A} (l : list A) a j b, nth_error (l ++ [a]) j = Some b -> nth_error l j = Some b \/ j = length l /\ b = a).
    { intros A l a j b H. destruct (Nat.lt_ge_cases j (length l)) as [Hj|Hj].
      - rewrite nth_error_app1 in H by exact Hj. left. exact H.
      - rewrite nth_error_app2 in H by exact Hj. destruct (j - length l) eqn:E; cbn in H; [|destruct n; discriminate].
        injection H as <-. right. split; [lia|reflexivity]. }
    constructor; cbn [m_objs m_heap m_user fst snd].
    - intros j p Hp. apply Hx in Hp as [Hp|[_ ->]]; [exact (rel_good w r R j p Hp)|exact HG].
    - intros j k p q Hn Hp Hq x Hix Hiq. apply Hx in Hp as [Hp|[Ej ->]], Hq as [Hq|[Ek ->]].
      + exact (rel_apart w r R j k p q Hn Hp Hq x Hix Hiq).
      + exact (HA j p x Hp Hix Hiq).
      + exact (HA k q x Hq Hiq Hix).
      + lia.
    - intros j p x Hp Hix Hu. apply Hx in Hp as [Hp|[_ ->]]; [exact (rel_user w r R j p x Hp Hix Hu)|exact (HU x Hix Hu)].
    - apply (rel_nodup w r R).
    - apply (rel_bound w r R).
    - rewrite !app_length, (rel_len w r R). reflexivity.
    - intros j p q Hp Hq. apply Hx in Hp as [Hp|[Ej ->]], Hq as [Hq|[Ek ->]].
      + exact (rel_holds w r R j p q Hp Hq).
      + assert (j < length (m_objs w)) by (apply nth_error_Some; congruence). rewrite (rel_len w r R) in H. lia.
      + assert (j < length (fst r)) by (apply nth_error_Some; congruence). rewrite <- (rel_len w r R) in H. lia.
      + exact HH.
    - apply (rel_lists w r R).
  Qed.
  (** A new list of the program. *)
  Lemma rel_give w r b v : rel w r -> b < length (m_heap w) -> (forall i o, nth_error (m_objs w) i = Some o -> ~ In b (mrefs o)) ->
    ~ In b (m_user w) -> cell (m_heap w) b = v ->
    rel (mkmworld (m_heap w) (m_objs w) (m_user w ++ [b])) (fst r, snd r ++ [v]).
  Proof.
    intros R Hb Ho Hu Hv. constructor; cbn [m_objs m_heap m_user fst snd].
    - apply (rel_good w r R).
    - apply (rel_apart w r R).
    - intros i o x Hi Hx H. apply in_app_iff in H as [H|[<-|[]]]; [exact (rel_user w r R i o x Hi Hx H)|exact (Ho i o Hi Hx)].
    - apply (NoDup_Add (a:=b) (l:=m_user w)); [rewrite <- (app_nil_r (m_user w)) at 1; apply Add_app|]. split; [apply (rel_nodup w r R)|exact Hu].
    - apply Forall_app. split; [apply (rel_bound w r R)|repeat constructor; exact Hb].
    - apply (rel_len w r R).
    - apply (rel_holds w r R).
    - rewrite map_app, (rel_lists w r R). cbn. rewrite Hv. reflexivity.
  Qed.
  (** Further lists appear on the heap. *)
  Lemma rel_more w r h' : rel w r -> length (m_heap w) <= length h' ->
    (forall x, x < length (m_heap w) -> cell h' x = cell (m_heap w) x) -> rel (mkmworld h' (m_objs w) (m_user w)) r.
  Proof.
    intros R HL HC.
    assert (Hlt : forall j p x, nth_error (m_objs w) j = Some p -> In x (mrefs p) -> x < length (m_heap w)).
    { intros j p x Hp Hx. destruct (rel_good w r R j p Hp) as [_ HF]. rewrite Forall_forall in HF. apply HF, Hx. }
    constructor; cbn [m_objs m_heap m_user fst snd].
    - intros j p Hp. destruct (rel_good w r R j p Hp) as [HN HF]. split; [exact HN|]. cbn in *. eapply Forall_impl; [|exact HF]. cbn. intros; lia.
    - apply (rel_apart w r R).
    - apply (rel_user w r R).
    - apply (rel_nodup w r R).
    - eapply Forall_impl; [|apply (rel_bound w r R)]. cbn. intros; lia.
    - apply (rel_len w r R).
    - intros j p q Hp Hq. eapply holds_ext; [|exact (rel_holds w r R j p q Hp Hq)]. intros x Hix. apply HC. exact (Hlt j p x Hp Hix).
    - rewrite <- (rel_lists w r R). apply cells_same. intros x Hix. apply HC.
      pose proof (rel_bound w r R) as HB. rewrite Forall_forall in HB. apply HB, Hix.
  Qed.

  Lemma objs_get w r i : rel w r ->
    match getn (m_objs w) i, getn (fst r) i with
    | Ok o, Ok l => nth_error (m_objs w) i = Some o /\ nth_error (fst r) i = Some l /\ holds (m_heap w) o l
    | Err e, Err e' => e = e'
    | _, _ => False
    end.
  Proof.
    intros R. pose proof (rel_len w r R) as HL. destruct (getn (m_objs w) i) as [o|e] eqn:E1.
    - apply getn_nth in E1. assert (Hi : i < length (m_objs w)) by (apply nth_error_Some; congruence).
      destruct (getn (fst r) i) as [l|e] eqn:E2; [|apply getn_err in E2; lia]. apply getn_nth in E2.
      split; [exact E1|]. split; [exact E2|]. eapply rel_holds; eassumption.
    - apply getn_err in E1 as [-> E1]. rewrite getn_short by lia. reflexivity.
  Qed.
  Lemma mrows_in (o : mobj V) : incl (m_rows o) (mrefs o).
  Proof. destruct o as [o|k o]; intros x Hx; [exact Hx|]. apply in_app_iff. left. exact Hx. Qed.
  Lemma mrows_elems (h : heap V) o : elems h (HRows (m_rows o)) = v_cont (mview (h, o)).
  Proof. destruct o as [o|k o]; reflexivity. Qed.
  Lemma arg_get w r a : rel w r ->
    match m_arg w a, q_arg r a with
    | Ok x, Ok v => elems (m_heap w) x = q_vals v_cont v /\ hin x (m_heap w)
    | Err e, Err e' => e = e'
    | _, _ => False
    end.
  Proof.
    intros R. destruct a as [i|i]; cbn [m_arg q_arg].
    - rewrite <- (rel_lists w r R), getn_map. destruct (getn (m_user w) i) as [x|e] eqn:E; cbn; [|reflexivity].
      split; [reflexivity|]. pose proof (rel_bound w r R) as HB. rewrite Forall_forall in HB. apply HB. eapply getn_In, E.
    - pose proof (objs_get w r i R) as H. destruct (getn (m_objs w) i) as [o|e], (getn (fst r) i) as [l|e']; cbn [rbind]; try contradiction; [|exact H].
      destruct H as (Ho & _ & Hs). split; [rewrite mrows_elems, Hs; reflexivity|].
      destruct (rel_good w r R i o Ho) as [_ HF]. cbn [fst snd hin] in *. rewrite Forall_forall in *. intros x Hx. apply HF, mrows_in, Hx.
  Qed.

  Notation stp := (v_step lt eq kfn dflt).
  Lemma op_step w r i (m : ST -> out V * ST) (f : mval V -> out V * mval V) : rel w r ->
    (forall o, nth_error (m_objs w) i = Some o -> mfollows (m_heap w, o) (m (m_heap w, o)) (f (mview (m_heap w, o)))) ->
    let q := match getn (fst r) i with Ok x => (fst (f x), (replace (fst r) i (snd (f x)), snd r)) | Err e => (RExn e, r) end in
    fst (on_mobj i m (@RExn V) w) = fst q /\ rel (snd (on_mobj i m (@RExn V) w)) (snd q).
  Proof.
    intros R HF. unfold on_mobj. pose proof (objs_get w r i R) as HO.
    destruct (getn (m_objs w) i) as [o|e], (getn (fst r) i) as [l|e']; try contradiction; cbv zeta.
    - destruct HO as (Ho & Hl & HH). destruct (HF o Ho) as (E1 & E2 & G & F). rewrite HH in *.
      destruct (m (m_heap w, o)) as [x [h' o']]. cbn [fst snd] in *. split; [exact E1|]. eapply rel_step; try eassumption.
    - subst e'. split; [reflexivity|exact R].
  Qed.
  Lemma q_on_eq i o (r : RW) : q_on stp i o r = match getn (fst r) i with Ok x => (fst (stp o x), (replace (fst r) i (snd (stp o x)), snd r)) | Err e => (RExn e, r) end.
  Proof. unfold q_on. destruct (getn (fst r) i) as [x|e]; [|reflexivity]. destruct (stp o x). reflexivity. Qed.

  Lemma set_mobj_same (l : list (mobj V)) : forall i o, nth_error l i = Some o -> set_mobj l i o = l.
  Proof. induction l as [|x l IH]; intros [|i] o H; cbn in *; try discriminate; [congruence|]. f_equal. apply IH, H. Qed.

  Notation fr := (v_fresh lt kfn dflt).
  Lemma new_step w r i (hm : ST -> res (mobj V) * ST) (f : mval V -> cls * list V) : rel w r ->
    (forall o, nth_error (m_objs w) i = Some o ->
       mmakes (m_heap w, o) (hm (m_heap w, o)) (fr (fst (f (mview (m_heap w, o)))) (snd (f (mview (m_heap w, o)))))) ->
    fst (new_mobj (on_mobj i hm Err w)) = fst (q_new fr i f r) /\ rel (snd (new_mobj (on_mobj i hm Err w))) (snd (q_new fr i f r)).
  Proof.
    intros R HM. unfold on_mobj, q_new, q_make. pose proof (objs_get w r i R) as HO.
    destruct (getn (m_objs w) i) as [o|e], (getn (fst r) i) as [l|e']; try contradiction; [|subst e'; split; [reflexivity|exact R]].
    destruct HO as (Ho & Hl & HH). destruct (HM o Ho) as (E1 & G & F & X0). rewrite HH in *.
    destruct (f l) as [c v]. cbn [fst snd] in X0. destruct (hm (m_heap w, o)) as [rr [h' o1]]. cbn [fst snd] in *.
    assert (R1 : rel (mkmworld h' (set_mobj (m_objs w) i o1) (m_user w)) (replace (fst r) i l, snd r)) by (eapply rel_step; try eassumption).
    rewrite (replace_same _ _ _ Hl) in R1. replace (fst r, snd r) with r in R1 by (destruct r; reflexivity).
    destruct (fr c v) as [x|e]; destruct rr as [o2|e2]; try contradiction; cbn [new_mobj fst snd]; [|split; [congruence|exact R1]].
    destruct X0 as (X1 & X2 & X3). cbn [fst snd m_heap m_objs m_user] in *. split; [reflexivity|].
    assert (Hlt : forall j p x, nth_error (m_objs w) j = Some p -> In x (mrefs p) -> x < length (m_heap w)).
    { intros j p y Hp Hy. destruct (rel_good w r R j p Hp) as [_ HF]. rewrite Forall_forall in HF. apply HF, Hy. }
    apply (rel_push _ r o2 _ R1); cbn [m_heap m_objs m_user].
    - exact X2.
    - intros j p y Hp Hy Hy2. destruct (X3 y Hy2) as [Hlen Hno]. rewrite nth_set_mobj in Hp by (apply nth_error_Some; congruence).
      destruct (Nat.eqb_spec i j) as [->|Hn]; [injection Hp as <-; contradiction|]. specialize (Hlt j p y Hp Hy). lia.
    - intros y Hy Hus. destruct (X3 y Hy) as [Hlen _]. pose proof (rel_bound w r R) as HB. rewrite Forall_forall in HB. specialize (HB y Hus). lia.
    - exact X1.
  Qed.
  Lemma fresh_step w r k a : rel w r ->
    let q := q_with a (fun x => q_make fr (match k with None => CList | Some k => CKey k end) (q_vals v_cont x)) r in
    fst (mnew lt kfn dflt k a w) = fst q /\ rel (snd (mnew lt kfn dflt k a w)) (snd q).
  Proof.
    intros R. cbv zeta. unfold mnew, with_marg, q_with. pose proof (arg_get w r a R) as HA.
    destruct (m_arg w a) as [x|e], (q_arg r a) as [v|e']; try contradiction; [|subst; split; [reflexivity|exact R]].
    destruct HA as [Hv _]. destruct (mnew_makes k x _ (m_heap w) Hv) as (L & C & X0). unfold q_make.
    destruct (m_new lt kfn dflt k x (m_heap w)) as [rr h']. cbn [fst snd] in *. pose proof (rel_more w r h' R L C) as R1.
    destruct (fr _ _) as [c|e0]; destruct rr as [o2|e2]; try contradiction; [|cbn; split; [congruence|exact R1]].
    destruct X0 as (X1 & X2 & X3). cbn [new_mobj fst snd m_heap m_objs m_user]. split; [reflexivity|].
    apply (rel_push _ r o2 _ R1); cbn [m_heap m_objs m_user].
    + exact X2.
    + intros j p y Hp Hy Hy2. destruct (rel_good w r R j p Hp) as [_ HF]. rewrite Forall_forall in HF. specialize (HF _ Hy). specialize (X3 y Hy2). cbn in HF. lia.
    + intros y Hy Hu. pose proof (rel_bound w r R) as HB. rewrite Forall_forall in HB. specialize (HB _ Hu). specialize (X3 y Hy). lia.
    + exact X1.
  Qed.

  Notation QS := (q_step stp fr v_cont v_kind (v_cmp lt eq)).
  Lemma slice_step w r i sl : rel w r ->
    fst (mw_step lt eq kfn dflt (WSlice i sl) w) = fst (QS (MW (WSlice i sl)) r) /\
    rel (snd (mw_step lt eq kfn dflt (WSlice i sl) w)) (snd (QS (MW (WSlice i sl)) r)).
  Proof.
    intros R. cbn [mw_step q_step]. rewrite q_on_eq. unfold on_mobj. pose proof (objs_get w r i R) as HO.
    destruct (getn (m_objs w) i) as [o|e], (getn (fst r) i) as [l|e']; try contradiction; [|subst e'; split; [reflexivity|exact R]].
    destruct HO as (Ho & Hl & HH). pose proof (rel_good w r R i o Ho) as HG.
    destruct (mslice_gives sl (m_heap w, o) HG) as (E1 & G & F & X0). rewrite HH in *.
    destruct (m_slice sl (m_heap w, o)) as [rr [h' o1]]. cbn [fst snd] in *.
    assert (R1 : rel (mkmworld h' (set_mobj (m_objs w) i o1) (m_user w)) (replace (fst r) i (snd (stp (KList (LSlice sl)) l)), snd r)).
    { eapply rel_step; try eassumption. }
    destruct (stp (KList (LSlice sl)) l) as [out l']. cbn [fst snd] in *.
    destruct rr as [b|e]; destruct out as [ | | |v0|v|e']; try contradiction; cbn [fst snd]; [|split; [congruence|exact R1]].
    destruct X0 as (Eb & Hb & Hi & Hn). cbn [fst snd m_heap m_objs m_user] in *. split; [rewrite Eb; reflexivity|].
    apply (rel_give _ _ b v R1); cbn [m_heap m_objs m_user]; try assumption.
    + intros j p Hp Hx. rewrite nth_set_mobj in Hp by (apply nth_error_Some; congruence).
      destruct (Nat.eqb_spec i j) as [->|Hn']; [injection Hp as <-; contradiction|].
      destruct (rel_good w r R j p Hp) as [_ HF]. rewrite Forall_forall in HF. specialize (HF b Hx). cbn in HF. lia.
    + intros Hu. pose proof (rel_bound w r R) as HB. rewrite Forall_forall in HB. specialize (HB b Hu). lia.
  Qed.

  Lemma replace_mval i (r : RW) l : getn (fst r) i = Ok l -> (replace (fst r) i l, snd r) = r.
  Proof. intros E. apply getn_nth in E. rewrite (replace_same _ _ _ E). destruct r; reflexivity. Qed.
  Lemma compare_step w r i op a : rel w r ->
    fst (mw_step lt eq kfn dflt (WCompare i op a) w) = fst (QS (MW (WCompare i op a)) r) /\
    rel (snd (mw_step lt eq kfn dflt (WCompare i op a) w)) (snd (QS (MW (WCompare i op a)) r)).
  Proof.
    intros R. cbn [mw_step q_step]. unfold m_binary.
    assert (HC : forall j op l, let q := match getn (fst r) j with Ok x => (fst (observe (@RBool V) (compare lt eq op l) (v_core x)), r) | Err e => (RExn e, r) end in
      fst (on_mobj j (m_compare lt eq op l) (@RExn V) w) = fst q /\ rel (snd (on_mobj j (m_compare lt eq op l) (@RExn V) w)) (snd q)).
    { intros j op' l. pose proof (op_step w r j (m_compare lt eq op' l) (fun x => (fst (observe (@RBool V) (compare lt eq op' l) (v_core x)), x)) R) as X.
      cbv beta zeta in X |- *. destruct (getn (fst r) j) as [x|e] eqn:E.
      - cbn [fst snd] in X |- *. rewrite (replace_mval j r x E) in X. apply X. intros o Ho. apply mcompare_follows. exact (rel_good w r R j o Ho).
      - apply X. intros o Ho. apply mcompare_follows. exact (rel_good w r R j o Ho). }
    destruct (right_first w i a) as [j|] eqn:ER.
    - unfold right_first in ER. destruct a as [|j']; [discriminate|]. destruct (getn (m_objs w) i) as [[ox|]|e] eqn:E1; try discriminate.
      destruct (getn (m_objs w) j') as [[|k oy]|e] eqn:E2; try discriminate. injection ER as <-.
      unfold with_marg, m_arg, q_with, q_arg. rewrite E1. cbn [rbind m_rows].
      pose proof (objs_get w r i R) as HO1. rewrite E1 in HO1. destruct (getn (fst r) i) as [x|e] eqn:F1; [|contradiction]. destruct HO1 as (_ & _ & H1).
      pose proof (objs_get w r j' R) as HO2. rewrite E2 in HO2. destruct (getn (fst r) j') as [y|e] eqn:F2; [|contradiction]. destruct HO2 as (_ & _ & H2).
      cbn [rbind]. specialize (HC j' (cmp_flip op) (elems (m_heap w) (HRows (rows ox)))). rewrite F2 in HC. cbv zeta in HC.
      unfold holds, mview in H1, H2. cbn [fst snd] in H1, H2. subst x y. exact HC.
    - unfold with_marg, q_with. pose proof (arg_get w r a R) as HA.
      destruct (m_arg w a) as [x|e] eqn:EA, (q_arg r a) as [v|e'] eqn:EB; try contradiction; [|subst; split; [reflexivity|exact R]].
      destruct HA as [Hv _]. specialize (HC i op (elems (m_heap w) x)). cbv zeta in HC.
      destruct (getn (fst r) i) as [y|e] eqn:E; [|exact HC].
      replace (v_cmp lt eq op y v) with (fst (observe (@RBool V) (compare lt eq op (elems (m_heap w) x)) (v_core y))); [exact HC|].
      rewrite Hv. unfold v_cmp. destruct y as [c|k c]; [|reflexivity]. destruct v as [l|[c'|k c']]; try reflexivity.
      exfalso. destruct a as [ia|ia]; cbn [q_arg] in EB; [destruct (getn (snd r) ia); discriminate|].
      unfold right_first in ER. pose proof (objs_get w r i R) as HO1. rewrite E in HO1. destruct (getn (m_objs w) i) as [o1|]; [|contradiction].
      destruct HO1 as (_ & _ & H1). pose proof (objs_get w r ia R) as HO2. destruct (getn (fst r) ia) as [y|]; [|discriminate].
      cbn [rbind] in EB. apply ok_inj in EB. injection EB as ->. destruct (getn (m_objs w) ia) as [o2|]; [|contradiction]. destruct HO2 as (_ & _ & H2).
      destruct o1 as [o1|k1 o1]; [|discriminate]. destruct o2 as [o2|k2 o2]; [discriminate|]. discriminate.
  Qed.
  Lemma plus_step w r i a : rel w r ->
    fst (mw_step lt eq kfn dflt (WPlus i a) w) = fst (QS (MW (WPlus i a)) r) /\
    rel (snd (mw_step lt eq kfn dflt (WPlus i a) w)) (snd (QS (MW (WPlus i a)) r)).
  Proof.
    intros R. cbn [mw_step q_step]. unfold m_binary.
    destruct (right_first w i a) as [j|] eqn:ER.
    - unfold right_first in ER. destruct a as [|j']; [discriminate|]. destruct (getn (m_objs w) i) as [[ox|]|e] eqn:E1; try discriminate.
      destruct (getn (m_objs w) j') as [[|k oy]|e] eqn:E2; try discriminate. injection ER as <-.
      unfold with_marg, q_with, q_arg.
      pose proof (arg_get w r (WObj i) R) as HA. cbn [m_arg q_arg] in HA |- *. rewrite E1 in *. cbn [rbind] in *.
      pose proof (objs_get w r i R) as HO1. rewrite E1 in HO1. destruct (getn (fst r) i) as [x|e] eqn:F1; [|contradiction]. destruct HO1 as (_ & _ & H1).
      pose proof (objs_get w r j' R) as HO2. rewrite E2 in HO2. destruct (getn (fst r) j') as [y|e] eqn:F2; [|contradiction]. destruct HO2 as (Ho2 & _ & H2).
      cbn [rbind] in *. destruct HA as [Hv Hin].
      destruct (new_step w r j' (m_plus lt kfn dflt (HRows (m_rows (OList ox)))) (fun y => (v_kind y, v_cont y ++ v_cont x)) R) as [A B].
      { intros o Ho. apply mplus_makes; [exact (rel_good w r R j' o Ho)|exact Hv|exact Hin]. }
      unfold q_new in A, B |- *. rewrite F2 in A, B. try rewrite F1.
      unfold holds, mview in H1, H2. cbn [fst snd] in H1, H2. subst x y. split; [exact A|exact B].
    - unfold with_marg, q_with. pose proof (arg_get w r a R) as HA.
      destruct (m_arg w a) as [x|e] eqn:EA, (q_arg r a) as [v|e'] eqn:EB; try contradiction; [|subst; split; [reflexivity|exact R]].
      destruct HA as [Hv Hin]. apply new_step; [exact R|]. intros o Ho.
      replace (q_sum v_cont v_kind v (mview (m_heap w, o))) with (v_kind (mview (m_heap w, o)), v_cont (mview (m_heap w, o)) ++ q_vals v_cont v).
      { apply mplus_makes; [exact (rel_good w r R i o Ho)|exact Hv|exact Hin]. }
      destruct v as [l|y]; [reflexivity|]. unfold q_sum. destruct o as [o|k o]; [|reflexivity]. destruct y as [c|k c]; [reflexivity|].
      exfalso. destruct a as [ia|ia]; cbn [q_arg] in EB; [destruct (getn (snd r) ia); discriminate|].
      unfold right_first in ER. apply getn_nth in Ho. rewrite Ho in ER. pose proof (objs_get w r ia R) as HO2. destruct (getn (fst r) ia) as [y|]; [|discriminate].
      cbn [rbind] in EB. apply ok_inj in EB. injection EB as ->. destruct (getn (m_objs w) ia) as [o2|]; [|contradiction]. destruct HO2 as (_ & _ & H2).
      destruct o2 as [o2|k2 o2]; discriminate.
  Qed.

  Lemma world_step w r o : rel w r -> msimple o ->
    fst (mop_step lt eq kfn dflt o w) = fst (QS o r) /\ rel (snd (mop_step lt eq kfn dflt o w)) (snd (QS o r)).
  Proof.
    intros R Ho. destruct o as [o|k a|i o|i n]; cbn [mop_step].
    1: destruct o as [l|i l|i|a|i o|i a|i a|i op a|i sl|i|i a|i n|i].
    - (* WList *) cbn. split; [reflexivity|].
      assert (R1 : rel (mkmworld (m_heap w ++ [l]) (m_objs w) (m_user w)) r).
      { apply rel_more; [exact R|rewrite app_length; lia|]. intros x Hx. apply cell_app_old, Hx. }
      apply (rel_give _ r (length (m_heap w)) l R1); cbn [m_heap m_objs m_user].
      + rewrite app_length. cbn. lia.
      + intros j p Hp Hx. destruct (rel_good w r R j p Hp) as [_ HF]. rewrite Forall_forall in HF. specialize (HF _ Hx). cbn in HF. lia.
      + intros Hu. pose proof (rel_bound w r R) as HB. rewrite Forall_forall in HB. specialize (HB _ Hu). lia.
      + apply cell_app_new.
    - (* WMutate *) cbn. rewrite <- (rel_lists w r R), getn_map. destruct (getn (m_user w) i) as [x|e] eqn:E; cbn [rbind fst snd];
        [|split; [reflexivity|exact R]].
      split; [reflexivity|]. pose proof (rel_bound w r R) as HB. rewrite Forall_forall in HB.
      assert (Hx : x < length (m_heap w)) by (apply HB; eapply getn_In, E).
      assert (Hno : forall j p, nth_error (m_objs w) j = Some p -> ~ In x (mrefs p)).
      { intros j p Hp Hi. exact (rel_user w r R j p x Hp Hi (getn_In _ _ _ E)). }
      constructor; cbn [m_objs m_heap m_user fst snd].
      + intros j p Hp. destruct (rel_good w r R j p Hp) as [HN HF]. split; [exact HN|]. cbn. rewrite length_write. exact HF.
      + apply (rel_apart w r R).
      + apply (rel_user w r R).
      + apply (rel_nodup w r R).
      + rewrite length_write. apply (rel_bound w r R).
      + apply (rel_len w r R).
      + intros j p q Hp Hq. eapply holds_ext; [|exact (rel_holds w r R j p q Hp Hq)]. intros y Hy. apply cell_write_other.
        intros ->. exact (Hno j p Hp Hy).
      + pose proof (updn_cell (m_heap w) (m_user w) i (fun _ => Ok l) (rel_nodup w r R) (rel_bound w r R)) as X1. rewrite E in X1. cbn [rbind] in X1.
        assert (Y : forall {A} (q : list (list A)) k z, k < length q -> updn q k (fun _ => Ok z) = Ok (replace q k z)).
        { intros A q. induction q as [|y q IH]; intros [|k] z Hk; cbn in *; try lia; [reflexivity|]. rewrite IH by lia. reflexivity. }
        rewrite Y in X1; [apply ok_inj in X1; symmetry; exact X1|]. rewrite map_length. apply nth_error_Some. apply getn_nth in E. congruence.
    - (* WLook *) cbn. rewrite <- (rel_lists w r R), getn_map. destruct (getn (m_user w) i) as [x|e] eqn:E; cbn; (split; [reflexivity|exact R]).
    - (* WNew *) exact (fresh_step w r None a R).
    - (* WOp *) cbn [mw_step q_step]. rewrite q_on_eq. apply (op_step w r i _ (stp (KList o)) R). intros o' Ho'.
      apply mstep_follows; [exact (rel_good w r R i o' Ho')|exact Ho].
    - (* WUpdate *) cbn [mw_step q_step]. unfold with_marg, q_with. pose proof (arg_get w r a R) as HA.
      destruct (m_arg w a) as [x|e], (q_arg r a) as [v|e']; try contradiction; [|subst; split; [reflexivity|exact R]].
      destruct HA as [Hv _]. rewrite q_on_eq. apply (op_step w r i _ (stp _) R). intros o' Ho'.
      apply mupdate_follows; [exact (rel_good w r R i o' Ho')|exact Hv].
    - (* WIAdd *) cbn [mw_step q_step]. unfold with_marg, q_with. pose proof (arg_get w r a R) as HA.
      destruct (m_arg w a) as [x|e], (q_arg r a) as [v|e']; try contradiction; [|subst; split; [reflexivity|exact R]].
      destruct HA as [Hv _]. rewrite q_on_eq. apply (op_step w r i _ (stp _) R). intros o' Ho'.
      apply (mupdate_follows x (q_vals v_cont v) (m_heap w, o')); [exact (rel_good w r R i o' Ho')|exact Hv].
    - apply compare_step, R.
    - apply slice_step, R.
    - cbn [mw_step q_step]. apply new_step; [exact R|]. intros o Ho'. apply mcopy_makes. exact (rel_good w r R i o Ho').
    - apply plus_step, R.
    - cbn [mw_step q_step]. apply new_step; [exact R|]. intros o Ho'. apply mmul_makes. exact (rel_good w r R i o Ho').
    - cbn [mw_step q_step]. apply new_step; [exact R|]. intros o Ho'. apply mreduce_makes. exact (rel_good w r R i o Ho').
    - exact (fresh_step w r (Some k) a R).
    - cbn [q_step]. rewrite q_on_eq. apply (op_step w r i _ (stp o) R). intros o' Ho'.
      apply mstep_follows; [exact (rel_good w r R i o' Ho')|exact Ho].
    - cbn [q_step]. apply new_step; [exact R|]. intros o Ho'. apply mrmul_makes. exact (rel_good w r R i o Ho').
  Qed.

  Lemma world_run ops : forall w r, rel w r -> Forall msimple ops ->
    fst (mw_run lt eq kfn dflt ops w) = fst (mixed_values lt eq kfn dflt ops r) /\
    rel (snd (mw_run lt eq kfn dflt ops w)) (snd (mixed_values lt eq kfn dflt ops r)).
  Proof.
    unfold mw_run, mixed_values, q_run. induction ops as [|o ops IH]; intros w r R HF; [split; [reflexivity|exact R]|].
    apply Forall_cons_iff in HF as [Ho HF]. destruct (world_step w r o R Ho) as [E R1]. cbn [run].
    destruct (mop_step lt eq kfn dflt o w) as [x w1], (QS o r) as [y r1]. cbn [fst snd] in *. subst y.
    destruct (IH w1 r1 R1 HF) as [E2 R2]. destruct (run (mop_step lt eq kfn dflt) ops w1) as [xs w2], (run QS ops r1) as [ys r2].
    cbn [fst snd] in *. subst. split; [reflexivity|exact R2].
  Qed.
  (** No list object is used twice. *)
  Lemma rel_distinct w r : rel w r -> NoDup (flat_map mrefs (m_objs w) ++ m_user w).
  Proof.
    intros R. apply nodup_app3.
    - pose proof (rel_good w r R) as HG. pose proof (rel_apart w r R) as HA. revert HG HA. generalize (m_objs w). intros l.
      induction l as [|o l IH]; intros HG HA; cbn; [constructor|]. apply nodup_app3.
      + apply (HG 0 o Logic.eq_refl).
      + apply IH; [intros i p Hp; exact (HG (S i) p Hp)|]. intros i j p q Hn Hp Hq. apply (HA (S i) (S j)); [lia|exact Hp|exact Hq].
      + intros x Hx Hi. apply in_flat_map in Hi as (p & Hp & Hi). apply In_nth_error in Hp as [j Hp].
        exact (HA 0 (S j) o p ltac:(lia) Logic.eq_refl Hp x Hx Hi).
    - apply (rel_nodup w r R).
    - intros x Hx Hu. apply in_flat_map in Hx as (p & Hp & Hi). apply In_nth_error in Hp as [j Hp].
      exact (rel_user w r R j p x Hp Hi Hu).
  Qed.
  Lemma rel_objs w r : rel w r -> map (fun o => mview (m_heap w, o)) (m_objs w) = fst r.
  Proof.
    intros R. pose proof (rel_len w r R) as HL. pose proof (rel_holds w r R) as HH. unfold holds in HH. revert HL HH.
    generalize (m_heap w), (m_objs w), (fst r). clear. intros h l. induction l as [|o l IH]; intros [|x m] HL HH; cbn in *; try lia; [reflexivity|].
    f_equal; [exact (HH 0 o x Logic.eq_refl Logic.eq_refl)|]. apply IH; [lia|]. intros i p q Hp Hq. exact (HH (S i) p q Hp Hq).
  Qed.
End Mixed.

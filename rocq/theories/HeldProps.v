(** * Lemmas for the property theorem about what iterators yield after changes *)
From Verif Require Import PyBase Model Spec SpecFacts History Reach ListProps ModelHeap HeapSpec HeapFacts HeapSim HeapSim2 HeapProps
  ModelIter IterSpec IterFacts IterProps HeldSpec HeldFacts.
Local Unset Implicit Arguments.

(** ** The lists an iterator refers to *)
Definition inner_ref (x : inner) : ref := match x with IFwd r _ | IBack r _ => r end.
Definition seg_refs (s : seg) : list ref :=
  match s with SAt r _ => [r] | SFlat _ _ (Some x) => [inner_ref x] | SFlat _ _ None => [] end.
Definition it_refs (it : iterator) : list ref := flat_map seg_refs it.

Section Refs.
  Context {V : Type}.
  Variable h : heap V.
  Variable rs : list ref.
  Lemma inner_next_refs x v x' : inner_next h x = Some (v, x') -> inner_ref x' = inner_ref x /\ In v (cell h (inner_ref x)).
  Proof.
    destruct x as [r i|r [|j]]; cbn; [|discriminate|].
    - destruct (nth_error (cell h r) i) eqn:E; [|discriminate]. intros [= <- <-]. split; [reflexivity|]. eapply nth_error_In, E.
    - destruct (nth_error (cell h r) j) eqn:E; [|discriminate]. intros [= <- <-]. split; [reflexivity|]. eapply nth_error_In, E.
  Qed.
  Lemma outer_next_refs o r o' : outer_next rs o = (Ok (Some r), o') -> In r rs.
  Proof.
    destruct o as [i|[|j]|[|i t]|]; cbn; try discriminate.
    - destruct (nth_error rs i) eqn:E; [|discriminate]. intros [= <- <-]. eapply nth_error_In, E.
    - destruct (nth_error rs j) eqn:E; [|discriminate]. intros [= <- <-]. eapply nth_error_In, E.
    - destruct (getn rs i) as [r'|] eqn:E; [|discriminate]. intros [= <- <-]. eapply getn_In, E.
  Qed.
  Lemma flat_next_refs f : forall o back cur, incl (seg_refs (SFlat o back cur)) rs \/ True ->
    incl (seg_refs (snd (flat_next h rs f o back cur))) (seg_refs (SFlat o back cur) ++ rs) /\
    forall v, fst (flat_next h rs f o back cur) = Ok (Some v) ->
      exists r, In r (seg_refs (SFlat o back cur) ++ rs) /\ In v (cell h r).
  Proof.
    induction f as [|f IH]; intros o back cur _; cbn [flat_next]; [split; [apply incl_appl, incl_refl|discriminate]|].
    destruct cur as [x|].
    - destruct (inner_next h x) as [[v x']|] eqn:E.
      + apply inner_next_refs in E as [E1 E2]. cbn [fst snd seg_refs]. rewrite E1. split; [apply incl_appl, incl_refl|].
        intros v' [= <-]. exists (inner_ref x). split; [left; reflexivity|exact E2].
      + destruct (IH o back None (or_intror I)) as [H1 H2]. cbn [seg_refs app] in *. split.
        * intros y Hy. right. apply H1, Hy.
        * intros v Hv. destruct (H2 v Hv) as (r & Hr & Hi). exists r. split; [right; exact Hr|exact Hi].
    - destruct (outer_next rs o) as [[[r|]|e] o'] eqn:E.
      + apply outer_next_refs in E. destruct (IH o' back (Some (enter h back r)) (or_intror I)) as [H1 H2].
        assert (HE : inner_ref (enter h back r) = r) by (unfold enter; destruct back; reflexivity).
        cbn [seg_refs app] in *. rewrite HE in H1, H2. split.
        * intros y Hy. apply H1 in Hy as [<-|Hy]; [exact E|exact Hy].
        * intros v Hv. destruct (H2 v Hv) as (r' & [<-|Hr] & Hi); [exists r; auto|exists r'; auto].
      + cbn. split; [intros y []|discriminate].
      + cbn. split; [intros y []|discriminate].
  Qed.
  Lemma seg_next_refs s : incl (seg_refs (snd (seg_next h rs s))) (seg_refs s ++ rs) /\
    forall v, fst (seg_next h rs s) = Ok (Some v) -> exists r, In r (seg_refs s ++ rs) /\ In v (cell h r).
  Proof.
    destruct s as [r [|i t]|o back cur]; [| |apply flat_next_refs; right; exact I]; cbn.
    - split; [|discriminate]. intros y [<-|[]]. left. reflexivity.
    - split; [intros y [<-|[]]; left; reflexivity|]. intros v Hv. exists r. split; [left; reflexivity|].
      destruct (getn (cell h r) i) as [v'|] eqn:E; [|discriminate]. injection Hv as <-. eapply getn_In, E.
  Qed.
  Lemma next_refs it : incl (it_refs (snd (next h rs it))) (it_refs it ++ rs) /\
    forall v, fst (next h rs it) = Ok (Some v) -> exists r, In r (it_refs it ++ rs) /\ In v (cell h r).
  Proof.
    induction it as [|s t [IH1 IH2]]; cbn [next it_refs flat_map]; [split; [intros y []|discriminate]|].
    destruct (seg_next_refs s) as [H1 H2]. destruct (seg_next h rs s) as [[[v|]|e] s']; cbn [fst snd] in *.
    - cbn [flat_map]. split.
      + intros y Hy. rewrite <- app_assoc. apply in_app_iff in Hy as [Hy|Hy]; [|apply in_app_iff; right; apply in_app_iff; left; exact Hy].
        apply H1, in_app_iff in Hy as [Hy|Hy]; apply in_app_iff; [left; exact Hy|]. right. apply in_app_iff. right. exact Hy.
      + intros v' Hv. destruct (H2 v' Hv) as (r & Hr & Hi). exists r. split; [|exact Hi]. rewrite <- app_assoc.
        apply in_app_iff in Hr as [Hr|Hr]; apply in_app_iff; [left; exact Hr|]. right. apply in_app_iff. right. exact Hr.
    - split.
      + intros y Hy. rewrite <- app_assoc. apply in_app_iff. right. apply IH1, Hy.
      + intros v' Hv. destruct (IH2 v' Hv) as (r & Hr & Hi). exists r. split; [|exact Hi]. rewrite <- app_assoc. apply in_app_iff. right. exact Hr.
    - cbn [flat_map]. split; [|discriminate].
      intros y Hy. rewrite <- app_assoc. apply in_app_iff in Hy as [Hy|Hy]; [|apply in_app_iff; right; apply in_app_iff; left; exact Hy].
      apply H1, in_app_iff in Hy as [Hy|Hy]; apply in_app_iff; [left; exact Hy|]. right. apply in_app_iff. right. exact Hy.
  Qed.
  Lemma pairs_refs a b c d rv it : it_pairs h rs a b c d rv = Ok it -> incl (it_refs it) rs.
  Proof.
    unfold it_pairs. destruct (c <? a); [intros [= <-] y []|]. destruct (a =? c).
    - destruct (getn rs a) as [r|] eqn:E; [|discriminate]. intros [= <-] y Hy. cbn in Hy. destruct Hy as [<-|[]]. eapply getn_In, E.
    - destruct (getn rs a) as [r1|] eqn:E1; [|discriminate]. destruct (getn rs c) as [r2|] eqn:E2; [|discriminate]. cbn [rbind].
      apply getn_In in E1, E2. destruct (a + 1 =? c), rv; intros [= <-] y Hy; cbn in Hy; repeat destruct Hy as [<-|Hy]; try assumption; destruct Hy.
  Qed.
End Refs.

Section Make.
  Context {V : Type}.
  Variable lt : V -> V -> res bool.
  Notation ST := (heap V * hsl V)%type.
  Lemma make_refs o (s : ST) : fst (snd (it_make lt o s)) = fst s /\ rows (snd (snd (it_make lt o s))) = rows (snd s) /\
    forall it, fst (it_make lt o s) = Ok it -> incl (it_refs it) (rows (snd s)).
  Proof.
    assert (HI : forall p rv (s : ST), fst (snd (it_islice_ p rv s)) = fst s /\ rows (snd (snd (it_islice_ p rv s))) = rows (snd s) /\
      forall it, fst (it_islice_ p rv s) = Ok it -> incl (it_refs it) (rows (snd s))).
    { intros p rv s'. split; [reflexivity|]. split; [reflexivity|]. intros it. unfold it_islice_. cbn [fst].
      destruct p as [[[a b] [c d]]|]; [apply pairs_refs|]. intros [= <-] y []. }
    assert (HB : forall (m : M (core V V) (option (nat * nat * (nat * nat)))) rv, let hm := (p <- reading m ;; it_islice_ p rv) in
      fst (snd (hm s)) = fst s /\ rows (snd (snd (hm s))) = rows (snd s) /\ forall it, fst (hm s) = Ok it -> incl (it_refs it) (rows (snd s))).
    { intros m rv. cbv zeta. unfold bind, reading, zoom. destruct s as [h ob]. destruct (m (view (h, ob))) as [[p|e] c].
      - destruct (HI p rv (put c (h, ob))) as (H1 & H2 & H3). rewrite H1, H2. auto.
      - split; [reflexivity|]. split; [reflexivity|discriminate]. }
    destruct o; cbn [it_make]; try (split; [reflexivity|]; split; [reflexivity|discriminate]);
      try (split; [reflexivity|]; split; [reflexivity|intros it [= <-] y []]); apply HB.
  Qed.
End Make.

(** ** A list that no other object uses *)
Definition own {V} (w : world V) (i : nat) (x : ref) : Prop :=
  x < length (w_heap w) /\ ~ In x (w_user w) /\ forall j o, j <> i -> nth_error (w_objs w) j = Some o -> ~ In x (rows o).
Definition traced {V} (w w' : world V) (i : nat) (ob : hsl V) (x : ref) : Prop :=
  own w' i x /\ exists ob', nth_error (w_objs w') i = Some ob' /\
    forall v, In v (cell (w_heap w') x) ->
      In v (cell (w_heap w) x) \/ In v (contents (view (w_heap w, ob))) \/ In v (contents (view (w_heap w', ob'))).

Section Trace.
  Context {V X : Type}.
  Variables lt eq : V -> V -> res bool.
  Variable dflt : nat.
  Variable H0 : core V V -> X -> Prop.
  Variable cont : X -> list V.
  Hypothesis Hcont : forall c x, H0 c x -> contents c = cont x.
  Notation rel := (rel H0).
  Notation ST := (heap V * hsl V)%type.

  Lemma own_rows w r i ob x : rel w r -> nth_error (w_objs w) i = Some ob -> In x (rows ob) -> own w i x.
  Proof.
    intros R Hi Hx. split; [|split].
    - destruct (rel_good _ w r R i ob Hi) as [_ HF]. rewrite Forall_forall in HF. apply HF, Hx.
    - exact (rel_user _ w r R i ob x Hi Hx).
    - intros j o Hn Hj. exact (rel_apart _ w r R i j ob o (fun E => Hn (Logic.eq_sym E)) Hi Hj x Hx).
  Qed.
  Lemma traced_refl (w : world V) i ob x : own w i x -> nth_error (w_objs w) i = Some ob -> traced w w i ob x.
  Proof. intros HO Hi. split; [exact HO|]. exists ob. auto. Qed.
  Lemma on_traced {A} w r i ob x j (hm : ST -> A * ST) bad : rel w r -> nth_error (w_objs w) i = Some ob -> own w i x ->
    (forall o, nth_error (w_objs w) j = Some o -> frame (w_heap w, o) (snd (hm (w_heap w, o)))) ->
    (j = i -> kept (w_heap w, ob) (snd (hm (w_heap w, ob)))) ->
    traced w (snd (on_obj j hm bad w)) i ob x.
  Proof.
    intros R Hi HO HF HK. unfold on_obj. destruct (getn (w_objs w) j) as [o|e] eqn:E; [|apply traced_refl; assumption].
    apply getn_nth in E. specialize (HF o E). destruct HO as (O1 & O2 & O3). destruct (Nat.eq_dec j i) as [->|Hn].
    - assert (o = ob) by congruence. subst o. specialize (HK Logic.eq_refl). destruct (hm (w_heap w, ob)) as [a [h' o']]. cbn [fst snd] in *.
      destruct HF as (FL & FC & FR). cbn [fst snd] in *. split.
      + split; [cbn [w_heap]; lia|]. split; [exact O2|]. intros j q Hn Hq. cbn [w_objs] in Hq.
        rewrite nth_set_obj in Hq by (apply nth_error_Some; congruence). destruct (Nat.eqb_spec i j) as [->|_]; [contradiction|]. eapply O3; eassumption.
      + exists o'. cbn [w_objs w_heap]. rewrite nth_set_obj by (apply nth_error_Some; congruence). rewrite Nat.eqb_refl. split; [reflexivity|].
        intros v Hv. destruct (in_dec Nat.eq_dec x (rows ob)) as [Hx|Hx]; [right; exact (HK x v Hx Hv)|]. left. rewrite FC in Hv by assumption. exact Hv.
    - destruct (hm (w_heap w, o)) as [a [h' o']]. cbn [fst snd] in *. destruct HF as (FL & FC & FR). cbn [fst snd] in *.
      pose proof (O3 j o Hn E) as Hx. split.
      + split; [cbn [w_heap]; lia|]. split; [exact O2|]. intros k q Hk Hq. cbn [w_objs] in Hq.
        rewrite nth_set_obj in Hq by (apply nth_error_Some; congruence). destruct (Nat.eqb_spec j k) as [->|_]; [|eapply O3; eassumption].
        injection Hq as <-. intros Hin. destruct (FR x Hin) as [H|H]; [exact (Hx H)|lia].
      + exists ob. cbn [w_objs w_heap]. rewrite nth_set_obj by (apply nth_error_Some; congruence).
        destruct (Nat.eqb_spec j i) as [?|_]; [contradiction|]. split; [exact Hi|]. intros v Hv. left. rewrite FC in Hv by assumption. exact Hv.
  Qed.
  Lemma kept_quiet {A B} n (P : _ -> Prop) (R : A -> B -> _ -> Prop) (m : M (core V V) A) (hm : M ST B) h o :
    sim n P R m hm -> good (h, o) -> n <= length h -> P (h, o) -> keeps m -> quiet hm -> kept (h, o) (snd (hm (h, o))).
  Proof.
    intros HS HG Hn HP HK HQ. destruct (quiet_cells n P R m hm h o HS HG Hn HP HK HQ) as [H1 H2]. apply kept_soft. intros x Hx. right. apply H2, Hx.
  Qed.
  Lemma sim_traced {A B} w r i ob x j (P : _ -> Prop) (Q : nat -> A -> B -> _ -> Prop) (m : M (core V V) A) (hm : M ST B) bad :
    rel w r -> nth_error (w_objs w) i = Some ob -> own w i x -> (forall n, sim n P (Q n) m hm) -> (forall o, P (w_heap w, o)) ->
    keeps m -> quiet hm -> traced w (snd (on_obj j hm bad w)) i ob x.
  Proof.
    intros R Hi HO HS HP HK HQ. apply (on_traced w r); [exact R|exact Hi|exact HO| |].
    - intros o Ho. destruct (HS (length (w_heap w)) (w_heap w, o) (rel_good _ w r R j o Ho) (le_n _) (HP o)) as (_ & _ & F & _). exact F.
    - intros ->. eapply (kept_quiet (length (w_heap w))); [apply HS|exact (rel_good _ w r R i ob Hi)|apply le_n|apply HP|exact HK|exact HQ].
  Qed.
  (** A new object, or a new list of the program. *)
  Lemma traced_push (w w' : world V) i ob x o' u : traced w w' i ob x -> ~ In x (rows o') -> ~ In x u ->
    traced w (mkworld (w_heap w') (w_objs w' ++ [o']) (w_user w' ++ u)) i ob x.
  Proof.
    intros [(O1 & O2 & O3) (ob' & H1 & H2)] Hx Hu. assert (Hl : i < length (w_objs w')) by (apply nth_error_Some; congruence). split.
    - split; [exact O1|]. split; [cbn [w_user]; intros H; apply in_app_iff in H as [H|H]; [exact (O2 H)|exact (Hu H)]|].
      intros j q Hn Hq. cbn [w_objs] in Hq. destruct (Nat.lt_ge_cases j (length (w_objs w'))) as [Hj|Hj].
      + rewrite nth_error_app1 in Hq by exact Hj. eapply O3; eassumption.
      + rewrite nth_error_app2 in Hq by exact Hj. destruct (j - length (w_objs w')) as [|k]; cbn in Hq; [injection Hq as <-; exact Hx|destruct k; discriminate].
    - exists ob'. split; [|exact H2]. cbn [w_objs]. rewrite nth_error_app1 by exact Hl. exact H1.
  Qed.
  Lemma traced_give (w w' : world V) i ob x b : traced w w' i ob x -> x <> b -> traced w (mkworld (w_heap w') (w_objs w') (w_user w' ++ [b])) i ob x.
  Proof.
    intros [(O1 & O2 & O3) (ob' & H1 & H2)] Hx. split; [|exists ob'; auto]. split; [exact O1|]. split; [|exact O3].
    cbn [w_user]. intros H. apply in_app_iff in H as [H|[H|[]]]; [exact (O2 H)|congruence].
  Qed.
  Lemma new_traced w r i ob x j (P : _ -> Prop) (m : M (core V V) (core V V)) (hm : M ST (hsl V)) :
    rel w r -> nth_error (w_objs w) i = Some ob -> own w i x -> (forall n, sim n P (newobj n) m hm) -> (forall o, P (w_heap w, o)) ->
    keeps m -> quiet hm -> traced w (snd (new_obj (on_obj j hm Err w))) i ob x.
  Proof.
    intros R Hi HO HS HP HK HQ. pose proof (sim_traced w r i ob x j P newobj m hm Err R Hi HO HS HP HK HQ) as HT.
    unfold on_obj in *. destruct (getn (w_objs w) j) as [o|e] eqn:E; [|exact HT]. apply getn_nth in E.
    destruct (HS (length (w_heap w)) (w_heap w, o) (rel_good _ w r R j o E) (le_n _) (HP o)) as (_ & _ & _ & Y).
    destruct (hm (w_heap w, o)) as [[o2|e2] [h' o1]]; cbn [fst snd new_obj] in *; [|exact HT].
    destruct (fst (m _)) as [c|]; [|contradiction]. destruct Y as (_ & _ & Y).
    replace (w_user w) with (w_user w ++ []) by apply app_nil_r. 
    apply (traced_push w (mkworld h' (set_obj (w_objs w) j o1) (w_user w)) i ob x o2 [] HT); [|intros []].
    intros Hin. destruct (Y x Hin) as [Hle _]. destruct HO as [Hlt _]. lia.
  Qed.

  Lemma step_traced w r o i ob x : rel w r -> match o with WOp _ o => simple_op o | _ => True end ->
    nth_error (w_objs w) i = Some ob -> own w i x -> traced w (snd (w_step lt eq dflt o w)) i ob x.
  Proof.
    intros R Ho Hi HO. assert (HO' := HO). destruct HO' as (O1 & O2 & O3). destruct o as [l|j l|j|a|j o|j a|j a|j op a|j sl|j|j a|j n|j].
    - cbn. apply (traced_give w (mkworld (w_heap w ++ [l]) (w_objs w) (w_user w)) i ob x (length (w_heap w))); [|lia].
      split; [split; [cbn [w_heap]; rewrite app_length; lia|split; assumption]|]. exists ob. split; [exact Hi|]. cbn [w_heap]. intros v Hv.
      rewrite cell_app_old in Hv by exact O1. auto.
    - cbn. destruct (getn (w_user w) j) as [y|e] eqn:E; [|apply traced_refl; assumption]. cbn [snd].
      split; [split; [cbn [w_heap]; rewrite length_write; exact O1|split; assumption]|]. exists ob. split; [exact Hi|]. cbn [w_heap]. intros v Hv.
      rewrite cell_write_other in Hv; [auto|]. intros ->. exact (O2 (getn_In _ _ _ E)).
    - cbn. destruct (getn (w_user w) j); apply traced_refl; assumption.
    - cbn [w_step]. unfold with_arg. destruct (w_arg w a) as [y|e]; [|apply traced_refl; assumption].
      destruct (new_sim lt dflt y (elems (w_heap w) y) (w_heap w) Logic.eq_refl) as (L & C & Y).
      destruct (h_new lt dflt y (w_heap w)) as [q h']. cbn [fst snd] in *.
      assert (HT : traced w (mkworld h' (w_objs w) (w_user w)) i ob x).
      { split; [split; [cbn [w_heap]; lia|split; assumption]|]. exists ob. split; [exact Hi|]. cbn [w_heap]. intros v Hv. rewrite C in Hv by exact O1. auto. }
      destruct q as [o2|e]; cbn [new_obj snd]; [|exact HT]. destruct (sl_new lt dflt _) as [c|]; [|contradiction]. destruct Y as (_ & _ & Y).
      cbn [w_heap w_objs w_user]. replace (w_user w) with (w_user w ++ []) by apply app_nil_r.
      apply (traced_push w (mkworld h' (w_objs w) (w_user w)) i ob x o2 [] HT); [|intros []]. intros Hin. specialize (Y x Hin). lia.
    - cbn [w_step]. apply (on_traced w r); [exact R|exact Hi|exact HO| |].
      + intros ob' Hob. apply (step_follows lt eq dflt o (w_heap w, ob')); [exact (rel_good _ w r R j ob' Hob)|exact Ho].
      + intros ->. apply kept_step. exact (rel_good _ w r R i ob Hi).
    - cbn [w_step]. unfold with_arg. destruct (w_arg w a) as [y|e]; [|apply traced_refl; assumption].
      apply (on_traced w r); [exact R|exact Hi|exact HO| |].
      + intros ob' Hob. apply (follows_obs_at runit (sl_update lt (elems (w_heap w) y)) _ (gives y (elems (w_heap w) y)) (w_heap w, ob')); [exact (rel_good _ w r R j ob' Hob)|reflexivity|].
        intros n. apply sim_update.
      + intros ->. apply kept_observe, kept_update. exact (rel_good _ w r R i ob Hi).
    - cbn [w_step]. unfold with_arg. destruct (w_arg w a) as [y|e]; [|apply traced_refl; assumption].
      apply (on_traced w r); [exact R|exact Hi|exact HO| |].
      + intros ob' Hob. apply (follows_obs_at runit (sl_update lt (elems (w_heap w) y)) _ (gives y (elems (w_heap w) y)) (w_heap w, ob')); [exact (rel_good _ w r R j ob' Hob)|reflexivity|].
        intros n. apply sim_update.
      + intros ->. apply kept_observe, kept_update. exact (rel_good _ w r R i ob Hi).
    - cbn [w_step]. unfold with_arg. destruct (w_arg w a) as [y|e]; [|apply traced_refl; assumption].
      apply (on_traced w r); [exact R|exact Hi|exact HO| |].
      + intros ob' Hob. apply (follows_obs (@RBool V) (compare (K:=V) lt eq op (elems (w_heap w) y)) _ (w_heap w, ob')); [exact (rel_good _ w r R j ob' Hob)|]. intros n. apply sim_reading, keeps_compare.
      + intros ->. apply kept_observe, kept_reading.
    - cbn [w_step].
      assert (HT : traced w (snd (on_obj j (h_getitem_slice sl) Err w)) i ob x).
      { eapply (sim_traced w r i ob x j any _ (getitem_slice sl)); [exact R|exact Hi|exact HO| |intros; exact I| |].
        - intros n. apply sim_getitem_slice.
        - apply keeps_slice.
        - apply quiet_slice. }
      unfold on_obj in *. destruct (getn (w_objs w) j) as [o|e] eqn:E; [|exact HT]. apply getn_nth in E.
      destruct (sim_getitem_slice (length (w_heap w)) sl (w_heap w, o) (rel_good _ w r R j o E) (le_n _) I) as (_ & _ & _ & Y).
      destruct (h_getitem_slice sl (w_heap w, o)) as [[b|e2] [h' o1]]; cbn [fst snd] in *; [|exact HT].
      destruct (fst (getitem_slice sl _)) as [c|]; [|contradiction]. destruct Y as (_ & _ & _ & Y).
      apply (traced_give w (mkworld h' (set_obj (w_objs w) j o1) (w_user w)) i ob x b HT). lia.
    - cbn [w_step]. eapply (new_traced w r i ob x j any (sl_copy lt dflt)); [exact R|exact Hi|exact HO| |intros; exact I|intros c; reflexivity|apply quiet_copy].
      intros n. apply sim_copy.
    - cbn [w_step]. unfold with_arg. pose proof (arg_get cont H0 Hcont w r a R) as HA.
      destruct (w_arg w a) as [y|e]; [|apply traced_refl; assumption]. destruct (r_arg cont r a) as [v|]; [|contradiction]. destruct HA as [Hv Hin].
      eapply (new_traced w r i ob x j (fun s => gives y v s /\ arg_in y s) (sl_plus lt dflt v)); [exact R|exact Hi|exact HO| | |intros c; reflexivity|apply quiet_plus].
      + intros n. apply sim_plus.
      + intros o. split; [exact Hv|apply Hin].
    - cbn [w_step]. eapply (new_traced w r i ob x j any (sl_mul lt dflt n)); [exact R|exact Hi|exact HO| |intros; exact I|intros c; reflexivity|apply quiet_mul].
      intros k. apply sim_mul.
    - cbn [w_step]. eapply (new_traced w r i ob x j any (sl_reduce lt dflt)); [exact R|exact Hi|exact HO| |intros; exact I|intros c; reflexivity|apply quiet_reduce].
      intros k. apply sim_reduce.
  Qed.
End Trace.

(** ** Histories *)
Definition iop_simple {V} (o : iop V) : Prop := match o with IOp (WOp _ o) => simple_op o | _ => True end.
Section Runs.
  Context {V : Type}.
  Variables lt eq : V -> V -> res bool.
  Variable dflt : nat.
  Definition sound (w : world V) : Prop := exists r, rel Logic.eq w r.
  Lemma sound_step o w : sound w -> match o with WOp _ o => simple_op o | _ => True end -> sound (snd (w_step lt eq dflt o w)).
  Proof.
    intros [r R] Ho. exists (snd (r_step (sl_step lt eq dflt) (sl_new lt dflt) contents o r)).
    apply (world_step lt eq dflt (sl_step lt eq dflt) (sl_new lt dflt) contents Logic.eq (fun _ => True)); try assumption.
    - intros; exact I.
    - intros c x o' _ ->. split; reflexivity.
    - intros v. destruct (sl_new lt dflt v); reflexivity.
    - intros c x ->. reflexivity.
    - destruct o; cbn; auto.
  Qed.
  Notation past := (once_held lt eq dflt).
  Lemma past_more ops o k i v : past ops k i v -> past (ops ++ [o]) k i v.
  Proof. intros (a & b & -> & H). exists a, (b ++ [o]). split; [rewrite app_assoc; reflexivity|exact H]. Qed.
  Definition inv (ops : list (iop V)) (s : world V * list (nat * iterator)) : Prop :=
    sound (fst s) /\ forall k i it, nth_error (snd s) k = Some (i, it) -> exists ob, nth_error (w_objs (fst s)) i = Some ob /\
      forall x, In x (it_refs it) -> own (fst s) i x /\ forall v, In v (cell (w_heap (fst s)) x) -> past ops k i v.
  Lemma held_now ops outs w its ob k i it v : i_run lt eq dflt ops i_init = (outs, (w, its)) -> nth_error its k = Some (i, it) ->
    nth_error (w_objs w) i = Some ob -> In v (contents (view (w_heap w, ob))) -> past ops k i v.
  Proof.
    intros E Hk Hi Hv. exists ops, []. split; [rewrite app_nil_r; reflexivity|]. exists outs, w, its, ob. split; [exact E|]. split; [|auto].
    apply nth_error_Some. congruence.
  Qed.
  Lemma next_past ops outs w its k i it ob : i_run lt eq dflt ops i_init = (outs, (w, its)) -> inv ops (w, its) ->
    nth_error its k = Some (i, it) -> nth_error (w_objs w) i = Some ob ->
    (forall x, In x (it_refs (snd (next (w_heap w) (rows ob) it))) -> own w i x /\ forall v, In v (cell (w_heap w) x) -> past ops k i v) /\
    forall v, fst (next (w_heap w) (rows ob) it) = Ok (Some v) -> past ops k i v.
  Proof.
    intros E [[r R] HI] Hk Hi. cbn [fst snd] in *. destruct (HI k i it Hk) as (ob' & Hi' & HX). assert (ob' = ob) by congruence. subst ob'.
    assert (HA : forall x, In x (it_refs it ++ rows ob) -> own w i x /\ forall v, In v (cell (w_heap w) x) -> past ops k i v).
    { intros x Hx. apply in_app_iff in Hx as [Hx|Hx]; [apply HX, Hx|]. split; [eapply own_rows; eassumption|].
      intros v Hv. eapply held_now; try eassumption. apply (in_contents (w_heap w, ob) x v Hx Hv). }
    destruct (next_refs (w_heap w) (rows ob) it) as [H1 H2]. split; [intros x Hx; apply HA, H1, Hx|].
    intros v Hv. destruct (H2 v Hv) as (x & Hx & Hin). exact (proj2 (HA x Hx) v Hin).
  Qed.

  Lemma inv_step ops o outs s : i_run lt eq dflt ops i_init = (outs, s) -> inv ops s -> iop_simple o ->
    inv (ops ++ [o]) (snd (i_step lt eq dflt o s)).
  Proof.
    intros E HI Ho.
    assert (E' : exists outs', i_run lt eq dflt (ops ++ [o]) i_init = (outs', snd (i_step lt eq dflt o s))).
    { unfold i_run in *. rewrite run_app, E. cbn [run fst snd]. destruct (i_step lt eq dflt o s) as [y s']. eexists. reflexivity. }
    destruct E' as [outs' E']. destruct s as [w its]. destruct HI as [HS HI]. cbn [fst snd] in *. destruct o as [o|j o|k0]; cbn [i_step] in *.
    - destruct (w_step lt eq dflt o w) as [y w'] eqn:Ew. cbn [fst snd] in *.
      assert (HS' : sound w') by (replace w' with (snd (w_step lt eq dflt o w)) by (rewrite Ew; reflexivity); apply sound_step; assumption).
      split; [exact HS'|]. cbn [fst snd]. intros k i it Hk. destruct (HI k i it Hk) as (ob & Hi & HX). destruct HS as [r R].
      assert (HT : forall x, own w i x -> traced w w' i ob x).
      { intros x Hx. replace w' with (snd (w_step lt eq dflt o w)) by (rewrite Ew; reflexivity).
        apply (step_traced lt eq dflt Logic.eq contents ltac:(intros c y' ->; reflexivity) w r); assumption. }
      assert (HN : exists ob', nth_error (w_objs w') i = Some ob').
      { pose proof (w_step_len lt eq dflt o w) as HL. rewrite Ew in HL. cbn [snd] in HL. assert (i < length (w_objs w)) by (apply nth_error_Some; congruence).
        destruct (nth_error (w_objs w') i) eqn:E3; [eauto|]. apply nth_error_None in E3. lia. }
      destruct HN as [ob' Hob']. exists ob'. split; [exact Hob'|]. intros x Hx. destruct (HX x Hx) as [HO HV].
      destruct (HT x HO) as (HO' & ob2 & Hob2 & HC). assert (ob2 = ob') by congruence. subst ob2. split; [exact HO'|].
      intros v Hv. destruct (HC v Hv) as [H|[H|H]].
      + apply past_more, HV, H.
      + apply past_more. eapply held_now; eassumption.
      + eapply held_now; eassumption.
    - unfold on_obj in *. destruct (getn (w_objs w) j) as [ob|e] eqn:Ej.
      2:{ cbn [fst snd] in *. split; [exact HS|]. cbn [fst snd]. intros k i it Hk. destruct (HI k i it Hk) as (ob & Hi & HX). exists ob. split; [exact Hi|].
          intros x Hx. destruct (HX x Hx) as [HO HV]. split; [exact HO|]. intros v Hv. apply past_more, HV, Hv. }
      apply getn_nth in Ej. destruct (make_refs lt o (w_heap w, ob)) as (M1 & M2 & M3).
      destruct (it_make lt o (w_heap w, ob)) as [q [h' ob1]]. cbn [fst snd] in *. subst h'.
      set (w1 := mkworld (w_heap w) (set_obj (w_objs w) j ob1) (w_user w)) in *.
      assert (Hj1 : nth_error (w_objs w1) j = Some ob1).
      { cbn [w1 w_objs]. rewrite nth_set_obj by (apply nth_error_Some; congruence). rewrite Nat.eqb_refl. reflexivity. }
      assert (HS1 : sound w1).
      { destruct HS as [r R]. pose proof (rel_len _ w r R) as HL.
        destruct (nth_error (fst r) j) as [l|] eqn:El; [|apply nth_error_None in El; assert (j < length (w_objs w)) by (apply nth_error_Some; congruence); lia].
        eexists. eapply (rel_step Logic.eq w r j ob l (w_heap w) ob1 (view (w_heap w, ob1))); try eassumption.
        - destruct (rel_good _ w r R j ob Ej) as [G1 G2]. split; cbn [snd fst] in *; rewrite M2; assumption.
        - split; [cbn; lia|]. cbn [fst snd]. rewrite M2. split; [reflexivity|auto].
        - reflexivity. }
      assert (HO1 : forall i x, own w i x -> own w1 i x).
      { intros i x (A & B & C). split; [exact A|]. split; [exact B|]. intros k p Hn Hp. cbn [w1 w_objs] in Hp.
        rewrite nth_set_obj in Hp by (apply nth_error_Some; congruence). destruct (Nat.eqb_spec j k) as [->|_]; [|eapply C; eassumption].
        injection Hp as <-. rewrite M2. eapply C; eassumption. }
      assert (HB : forall its' k i it, nth_error its k = Some (i, it) -> nth_error its' k = Some (i, it) -> exists ob0, nth_error (w_objs w1) i = Some ob0 /\
        forall x, In x (it_refs it) -> own w1 i x /\ forall v, In v (cell (w_heap w1) x) -> past (ops ++ [IMake j o]) k i v).
      { intros its' k i it Hk _. destruct (HI k i it Hk) as (ob0 & Hi & HX).
        assert (HN : exists ob2, nth_error (w_objs w1) i = Some ob2).
        { cbn [w1 w_objs]. rewrite nth_set_obj by (apply nth_error_Some; congruence). destruct (j =? i); eauto. }
        destruct HN as [ob2 Hob2]. exists ob2. split; [exact Hob2|]. intros x Hx. destruct (HX x Hx) as [HO HV]. split; [apply HO1, HO|].
        intros v Hv. apply past_more, HV, Hv. }
      destruct q as [it0|e]; cbn [fst snd] in *; (split; [exact HS1|]); cbn [fst snd]; intros k i it Hk; [|eapply HB; eassumption].
      destruct (Nat.lt_ge_cases k (length its)) as [Hl|Hl].
      + assert (Hk' := Hk). rewrite nth_error_app1 in Hk by exact Hl. eapply HB; eassumption.
      + assert (Hk' := Hk). rewrite nth_error_app2 in Hk by exact Hl. destruct (k - length its) as [|d]; cbn in Hk; [|destruct d; discriminate].
        injection Hk as <- <-. exists ob1. split; [exact Hj1|]. intros x Hx. apply (M3 it0 Logic.eq_refl) in Hx. rewrite <- M2 in Hx.
        destruct HS1 as [r1 R1]. split; [eapply own_rows; eassumption|]. intros v Hv. eapply held_now; try eassumption.
        apply (in_contents (w_heap w1, ob1) x v Hx Hv).
    - assert (HP : forall its', (forall k i it, nth_error its' k = Some (i, it) -> exists ob, nth_error (w_objs w) i = Some ob /\
          forall x, In x (it_refs it) -> own w i x /\ forall v, In v (cell (w_heap w) x) -> past ops k i v) -> inv (ops ++ [INext k0]) (w, its')).
      { intros its' H. split; [exact HS|]. cbn [fst snd]. intros k i it Hk. destruct (H k i it Hk) as (ob & Hi & HX). exists ob. split; [exact Hi|].
        intros x Hx. destruct (HX x Hx) as [HO HV]. split; [exact HO|]. intros v Hv. apply past_more, HV, Hv. }
      destruct (getn its k0) as [[i it]|e] eqn:Ek; [|apply HP, HI]. destruct (getn (w_objs w) i) as [ob|e] eqn:Eo; [|apply HP, HI].
      apply getn_nth in Ek, Eo. destruct (next_past ops outs w its k0 i it ob E (conj HS HI) Ek Eo) as [HN _].
      destruct (next (w_heap w) (rows ob) it) as [q it']. cbn [fst snd] in *. apply HP. intros k i' it2 Hk.
      rewrite nth_set_it in Hk by (apply nth_error_Some; congruence). destruct (Nat.eqb_spec k0 k) as [->|_]; [|eapply HI, Hk].
      injection Hk as <- <-. exists ob. split; [exact Eo|exact HN].
  Qed.
  Lemma inv_run ops outs s : Forall iop_simple ops -> i_run lt eq dflt ops i_init = (outs, s) -> inv ops s.
  Proof.
    revert outs s. induction ops as [|o ops IH] using rev_ind; intros outs s HF E.
    - injection E as <- <-. split; [exists ([], []); apply rel_init|]. intros [|k] i it Hk; discriminate.
    - apply Forall_app in HF as [HF Ho]. apply Forall_cons_iff in Ho as [Ho _]. unfold i_run in E. rewrite run_app in E.
      destruct (run (i_step lt eq dflt) ops i_init) as [outs1 s1] eqn:E1. cbn [run fst snd] in E.
      pose proof (inv_step ops o outs1 s1 E1 (IH outs1 s1 HF E1) Ho) as X. destruct (i_step lt eq dflt o s1) as [y s2]. cbn [fst snd] in *. injection E as _ <-. exact X.
  Qed.
End Runs.

Lemma c80_held : forall (V : Type) (lt eq : V -> V -> res bool) (dflt : nat) (ops : list (iop V)) outs w its k i it v,
  Forall (fun o => match o with IOp (WOp _ o) => simple_op o | _ => True end) ops ->
  i_run lt eq dflt ops i_init = (outs, (w, its)) -> nth_error its k = Some (i, it) ->
  fst (i_step lt eq dflt (INext k) (w, its)) = IOut (RVal v) -> once_held lt eq dflt ops k i v.
Proof.
  intros V lt eq dflt ops outs w its k i it v HF E Hk HN. pose proof (inv_run lt eq dflt ops outs (w, its) HF E) as HI.
  cbn [i_step] in HN. assert (Ek : getn its k = Ok (i, it)) by (apply getn_nth, Hk). rewrite Ek in HN.
  destruct (getn (w_objs w) i) as [ob|e] eqn:Eo; [|discriminate]. apply getn_nth in Eo.
  destruct (next_past lt eq dflt ops outs w its k i it ob E HI Hk Eo) as [_ X].
  destruct (next (w_heap w) (rows ob) it) as [[[u|]|e] it']; cbn [fst snd] in *; [|discriminate|discriminate].
  apply X. congruence.
Qed.

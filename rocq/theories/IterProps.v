(** * Lemmas for the property theorems about kept iterators *)
From Verif Require Import PyBase Model Spec SpecFacts History Reach ListProps Concrete ModelHeap HeapSpec HeapFacts HeapSim HeapSim2 HeapProps ModelIter IterSpec IterFacts.
Local Unset Implicit Arguments.

Section Make.
  Context {V : Type}.
  Variables lt eq : V -> V -> res bool.
  Variable dflt : nat.
  Notation ST := (heap V * hsl V)%type.

  Definition from_pos (ls : list (list V)) (p : option (nat * nat * (nat * nat))) (rv : bool) : res (list V) :=
    match p with None => Ok [] | Some (a, b, (c, d)) => islice_pairs ls a b c d rv end.
  Lemma islice_split a b r c :
    islice (V:=V) (K:=V) a b r c = let (p, c') := islice_pos a b c in (let! p := p in from_pos (lists c) p r, c').
  Proof.
    unfold islice, islice_pos, bind, get. destruct (len c =? 0); [reflexivity|]. unfold liftr.
    destruct (slice_indices _ _) as [[[start stop] step]|e]; [|reflexivity]. destruct (stop <=? start)%Z; [reflexivity|].
    pose proof (keeps_pos (V:=V) start c) as K1. destruct (Model.pos_of start c) as [[[p1 p2]|e] c1]; [|reflexivity].
    destruct (stop =? Z.of_nat (len c))%Z.
    - destruct (getlast (lists c)); reflexivity.
    - destruct (Model.pos_of stop c1) as [[[q1 q2]|e] c2]; reflexivity.
  Qed.
  Lemma irange_split mn mx a b r c :
    sl_irange lt mn mx a b r c = let (p, c') := irange_pos lt mn mx a b c in (let! p := p in from_pos (lists c) p r, c').
  Proof.
    unfold sl_irange, irange_pos, bind, get. destruct (is_nil (maxes c)); [reflexivity|]. unfold liftr, ret.
    destruct mn as [m|].
    - destruct ((if a then bisect_left lt else bisect_right lt) (maxes c) m) as [p|]; [|reflexivity].
      destruct (p =? length (maxes c)); [reflexivity|]. destruct (getn (lists c) p) as [l|]; [|reflexivity].
      destruct ((if a then bisect_left lt else bisect_right lt) l m) as [q|]; [|reflexivity].
      destruct mx as [m'|].
      + destruct ((if b then bisect_right lt else bisect_left lt) (maxes c) m') as [p'|]; [|reflexivity].
        destruct (p' =? length (maxes c)); [destruct (getn (lists c) (p' - 1)); reflexivity|]. destruct (getn (lists c) p') as [l'|]; [|reflexivity].
        destruct ((if b then bisect_right lt else bisect_left lt) l' m') as [q'|]; reflexivity.
      + destruct (getn (lists c) (length (maxes c) - 1)); reflexivity.
    - destruct mx as [m'|].
      + destruct ((if b then bisect_right lt else bisect_left lt) (maxes c) m') as [p'|]; [|reflexivity].
        destruct (p' =? length (maxes c)); [destruct (getn (lists c) (p' - 1)); reflexivity|]. destruct (getn (lists c) p') as [l'|]; [|reflexivity].
        destruct ((if b then bisect_right lt else bisect_left lt) l' m') as [q'|]; reflexivity.
      + destruct (getn (lists c) (length (maxes c) - 1)); reflexivity.
  Qed.

  Lemma keeps_islice_pos a b : keeps (V:=V) (islice_pos a b).
  Proof. pose proof (keeps_pos (V:=V)). unfold islice_pos. keep. Qed.
  Lemma keeps_irange_pos mn mx a b : keeps (irange_pos lt mn mx a b).
  Proof. unfold irange_pos. keep. Qed.

  (** Making an iterator changes neither the internal lists nor which they are. *)
  Definition makes (o : lop V) : Prop :=
    match o with LIter | LReversed | LISlice _ _ _ | LIRange _ _ _ _ _ => True | _ => False end.
  Lemma make_ok o s x : makes o -> fst (sl_step lt eq dflt o (view s)) = RList x ->
    exists it s', it_make lt o s = (Ok it, s') /\ fst s' = fst s /\ rows (snd s') = rows (snd s) /\
      view s' = snd (sl_step lt eq dflt o (view s)) /\ itval (fst s) (rows (snd s)) it x.
  Proof.
    destruct s as [h ob]. intros Ho Hx.
    assert (HP : forall p c' rv, lists c' = map (cell h) (rows ob) ->
      (let! p := p in from_pos (map (cell h) (rows ob)) p rv) = Ok x ->
      exists it s', (let '(r, s) := (p, put c' (h, ob)) in match r with Ok q => it_islice_ q rv s | Err e => (Err e, s) end) = (Ok it, s') /\
        fst s' = h /\ rows (snd s') = rows ob /\ view s' = c' /\ itval h (rows ob) it x).
    { intros p c' rv Hl Hp. destruct p as [p|]; [|discriminate]. cbn [rbind] in Hp. unfold it_islice_.
      assert (Hv : view (put c' (h, ob)) = c') by (apply view_put; rewrite Hl; reflexivity).
      destruct p as [[[a b] [c d]]|]; cbn [from_pos] in Hp.
      - apply pairs_val in Hp as (it & E & Hit). exists it, (put c' (h, ob)). split; [cbn [put fst snd rows]; rewrite E; reflexivity|].
        split; [reflexivity|]. split; [reflexivity|]. split; [exact Hv|exact Hit].
      - apply ok_inj in Hp as <-. exists [], (put c' (h, ob)). split; [reflexivity|]. split; [reflexivity|]. split; [reflexivity|].
        split; [exact Hv|]. exists []. split; [constructor|reflexivity]. }
    destruct o; try destruct Ho; cbn [sl_step it_make] in *; unfold observe in *.
    - unfold iter, bind, get, ret in *. cbn [fst snd] in *. injection Hx as <-. eexists _, (h, ob). split; [reflexivity|].
      split; [reflexivity|]. split; [reflexivity|]. split; [reflexivity|]. apply iter_val.
    - unfold reversed, bind, get, ret in *. cbn [fst snd] in *. injection Hx as <-. eexists _, (h, ob). split; [reflexivity|].
      split; [reflexivity|]. split; [reflexivity|]. split; [reflexivity|]. apply reversed_val.
    - rewrite irange_split in Hx. rewrite irange_split. unfold it_irange, bind, reading, zoom.
      pose proof (keeps_irange_pos mn mx imin imax (view (h, ob))) as HK.
      destruct (irange_pos lt mn mx imin imax (view (h, ob))) as [p c']. cbn [fst snd] in *.
      change (lists (view (h, ob))) with (map (cell h) (rows ob)) in *.
      destruct (let! p := p in from_pos (map (cell h) (rows ob)) p reverse) as [y|] eqn:E; cbn [fst snd] in *; [|discriminate].
      injection Hx as ->. exact (HP p c' reverse HK E).
    - rewrite islice_split in Hx. rewrite islice_split. unfold it_islice, bind, reading, zoom.
      pose proof (keeps_islice_pos start stop (view (h, ob))) as HK.
      destruct (islice_pos start stop (view (h, ob))) as [p c']. cbn [fst snd] in *.
      change (lists (view (h, ob))) with (map (cell h) (rows ob)) in *.
      destruct (let! p := p in from_pos (map (cell h) (rows ob)) p reverse) as [y|] eqn:E; cbn [fst snd] in *; [|discriminate].
      injection Hx as ->. exact (HP p c' reverse HK E).
  Qed.

  (** Methods that leave [_lists] alone. *)
  Definition quiet {A} (hm : M ST A) : Prop := forall s, rows (snd (snd (hm s))) = rows (snd s).
  Lemma quiet_bind {A B} (m : M ST A) (k : A -> M ST B) : quiet m -> (forall a, quiet (k a)) -> quiet (bind m k).
  Proof. intros Hm Hk s. unfold bind. specialize (Hm s). destruct (m s) as [[a|e] s']; cbn in *; [rewrite Hk|]; exact Hm. Qed.
  Lemma quiet_ret {A} (a : A) : quiet (ret a). Proof. intros s. reflexivity. Qed.
  Lemma quiet_raise {A} e : quiet (raise (A:=A) e). Proof. intros s. reflexivity. Qed.
  Lemma quiet_liftr {A} (a : res A) : quiet (liftr a). Proof. intros s. reflexivity. Qed.
  Lemma quiet_alloc x : quiet (h_alloc x). Proof. intros s. reflexivity. Qed.
  Lemma quiet_cell x : quiet (h_cell x). Proof. intros s. reflexivity. Qed.
  Lemma quiet_row x : quiet (h_row x). Proof. intros s. reflexivity. Qed.
  Lemma quiet_write x y : quiet (h_write x y). Proof. intros [h o]. reflexivity. Qed.
  Lemma quiet_heap f : quiet (modify (fun s : ST => (f s, snd s))). Proof. intros s. reflexivity. Qed.
  Lemma quiet_reading {A} (m : M (core V V) A) : quiet (reading m).
  Proof. intros [h o]. unfold reading, zoom. destruct (m _). reflexivity. Qed.
  Lemma quiet_class a : quiet (h_class lt dflt a).
  Proof. intros [h o]. unfold h_class. cbn. destruct (h_new _ _ _ _). reflexivity. Qed.
End Make.
Ltac quiets :=
  first [ assumption | apply quiet_ret | apply quiet_raise | apply quiet_liftr | apply quiet_alloc | apply quiet_cell | apply quiet_row | apply quiet_write
        | apply quiet_reading | apply quiet_class | apply quiet_heap
        | match goal with H : forall _, quiet _ |- _ => apply H end
        | apply quiet_bind; [quiets|intros; quiets]
        | match goal with |- quiet (match ?x with _ => _ end) => destruct x; quiets end ].
Section Quiet.
  Context {V : Type}.
  Variables lt eq : V -> V -> res bool.
  Variable dflt : nat.
  Lemma quiet_flat : quiet (V:=V) h_flat. Proof. unfold h_flat. quiets. Qed.
  Lemma quiet_slice f : forall sl, quiet (V:=V) (h_getitem_slice_rec f sl).
  Proof.
    pose proof quiet_flat. induction f as [|f IH]; intros sl; cbn [h_getitem_slice_rec]; [quiets|]. unfold h_getitem_fwd. quiets.
  Qed.
  Lemma quiet_copy : quiet (h_copy lt dflt). Proof. intros s. apply quiet_class. Qed.
  Lemma quiet_plus a : quiet (h_plus lt dflt a).
  Proof. pose proof quiet_flat. unfold h_plus. repeat (apply quiet_bind; [first [quiets|intros s; reflexivity]|intros]). quiets. Qed.
  Lemma quiet_mul n : quiet (h_mul lt dflt n). Proof. pose proof quiet_flat. unfold h_mul. quiets. Qed.
  Lemma quiet_reduce : quiet (h_reduce lt dflt). Proof. pose proof quiet_flat. unfold h_reduce. quiets. Qed.

  Lemma keeps_slice f : forall sl, keeps (V:=V) (getitem_slice_rec f sl).
  Proof.
    pose proof (keeps_pos (V:=V)). pose proof (keeps_getitem (V:=V)).
    induction f as [|f IH]; intros sl; cbn [getitem_slice_rec]; [keep|]. keep.
  Qed.
  Lemma map_eq_in {A B} (f g : A -> B) l : map f l = map g l -> forall x, In x l -> f x = g x.
  Proof. induction l as [|a l IH]; cbn; intros H x Hx; [destruct Hx|]. injection H as H1 H2. destruct Hx as [<-|Hx]; auto. Qed.
  Lemma quiet_cells {A B} n (P : _ -> Prop) (R : A -> B -> _ -> Prop) (m : M (core V V) A) hm h o :
    sim n P R m hm -> good (h, o) -> n <= length h -> P (h, o) -> keeps m -> quiet hm ->
    rows (snd (snd (hm (h, o)))) = rows o /\ forall x, In x (rows o) -> cell (fst (snd (hm (h, o)))) x = cell h x.
  Proof.
    intros HS HG Hn HP HK HQ. destruct (HS (h, o) HG Hn HP) as (E & _). specialize (HQ (h, o)). cbn [snd] in HQ. split; [exact HQ|].
    specialize (HK (view (h, o))). rewrite <- E in HK. destruct (snd (hm (h, o))) as [h' o']. cbn [fst snd] in *. cbn in HK. rewrite HQ in HK.
    exact (map_eq_in _ _ _ HK).
  Qed.
End Quiet.

(** ** Other operations do not disturb an object's internal lists *)
Definition calm {V} (w w' : world V) (i : nat) (ob : hsl V) : Prop :=
  exists ob', nth_error (w_objs w') i = Some ob' /\ rows ob' = rows ob /\ forall x, In x (rows ob) -> cell (w_heap w') x = cell (w_heap w) x.
Lemma calm_refl {V} (w : world V) i ob : nth_error (w_objs w) i = Some ob -> calm w w i ob.
Proof. intros H. exists ob. auto. Qed.
Lemma calm_new {V} (w : world V) r w' i ob : calm w w' i ob -> calm w (snd (new_obj (r, w'))) i ob.
Proof.
  intros (ob' & H1 & H2 & H3). destruct r; cbn; exists ob'; cbn; [|auto]. split; [|auto].
  rewrite nth_error_app1; [exact H1|]. apply nth_error_Some. congruence.
Qed.

Section Calm.
  Context {V X : Type}.
  Variable H0 : core V V -> X -> Prop.
  Notation rel := (rel H0).

  Lemma on_calm {A} w r i ob j (hm : heap V * hsl V -> A * (heap V * hsl V)) bad : rel w r -> nth_error (w_objs w) i = Some ob ->
    (forall o, nth_error (w_objs w) j = Some o -> frame (w_heap w, o) (snd (hm (w_heap w, o)))) ->
    (j = i -> rows (snd (snd (hm (w_heap w, ob)))) = rows ob /\ forall x, In x (rows ob) -> cell (fst (snd (hm (w_heap w, ob)))) x = cell (w_heap w) x) ->
    calm w (snd (on_obj j hm bad w)) i ob.
  Proof.
    intros R Hi HF HQ. unfold on_obj. destruct (getn (w_objs w) j) as [o|e] eqn:E; [|apply calm_refl, Hi].
    apply getn_nth in E. specialize (HF o E). destruct (Nat.eq_dec j i) as [->|Hn].
    - assert (o = ob) by congruence. subst o. destruct (HQ eq_refl) as [Q1 Q2]. destruct (hm (w_heap w, ob)) as [a [h' o']]. cbn [fst snd] in *.
      exists o'. cbn [w_objs w_heap]. rewrite nth_set_obj by (apply nth_error_Some; congruence). rewrite Nat.eqb_refl. auto.
    - destruct (hm (w_heap w, o)) as [a [h' o']]. cbn [fst snd] in *. destruct HF as (FL & FC & FR). cbn [fst snd] in *.
      exists ob. cbn [w_objs w_heap]. rewrite nth_set_obj by (apply nth_error_Some; congruence).
      destruct (Nat.eqb_spec j i) as [?|_]; [contradiction|]. split; [exact Hi|]. split; [reflexivity|]. intros x Hx. apply FC.
      + destruct (rel_good _ w r R i ob Hi) as [_ HFo]. rewrite Forall_forall in HFo. apply HFo, Hx.
      + apply (rel_apart _ w r R i j ob o); auto.
  Qed.
  Lemma sim_calm {A B} w r i ob j (P : _ -> Prop) (Q : nat -> A -> B -> _ -> Prop) (m : M (core V V) A) (hm : M (heap V * hsl V) B) bad :
    rel w r -> nth_error (w_objs w) i = Some ob -> (forall n, sim n P (Q n) m hm) -> (forall o, P (w_heap w, o)) ->
    (j = i -> keeps m /\ quiet hm) -> calm w (snd (on_obj j hm bad w)) i ob.
  Proof.
    intros R Hi HS HP HK. apply (on_calm w r); [exact R|exact Hi| |].
    - intros o Ho. destruct (HS (length (w_heap w)) (w_heap w, o) (rel_good _ w r R j o Ho) (le_n _) (HP o)) as (_ & _ & F & _). exact F.
    - intros ->. destruct (HK eq_refl) as [HK1 HK2].
      exact (quiet_cells (length (w_heap w)) P _ m hm (w_heap w) ob (HS _) (rel_good _ w r R i ob Hi) (le_n _) (HP ob) HK1 HK2).
  Qed.
  Lemma reading_same {A} (inj : A -> out V) (m : M (core V V) A) h o :
    rows (snd (snd (observe inj (reading m) (h, o)))) = rows o /\
    forall x, In x (rows o) -> cell (fst (snd (observe inj (reading m) (h, o)))) x = cell h x.
  Proof. unfold observe, reading, zoom. destruct (m (view (h, o))) as [[b|e] c]; split; reflexivity. Qed.
End Calm.

Section Step.
  Context {V X : Type}.
  Variables lt eq : V -> V -> res bool.
  Variable dflt : nat.
  Variable H0 : core V V -> X -> Prop.
  Variable cont : X -> list V.
  Hypothesis Hcont : forall c x, H0 c x -> contents c = cont x.
  Notation rel := (rel H0).

  Lemma step_calm w r o i ob : rel w r -> match o with WOp _ o => simple_op o | _ => True end -> changes o <> Some i ->
    nth_error (w_objs w) i = Some ob -> calm w (snd (w_step lt eq dflt o w)) i ob.
  Proof.
    intros R Ho Hc Hi. destruct o as [l|j l|j|a|j o|j a|j a|j op a|j sl|j|j a|j n|j].
    - cbn. exists ob. cbn. split; [exact Hi|]. split; [reflexivity|]. intros x Hx. apply cell_app_old.
      destruct (rel_good _ w r R i ob Hi) as [_ HF]. rewrite Forall_forall in HF. apply HF, Hx.
    - cbn. destruct (getn (w_user w) j) as [x|e] eqn:E; [|apply calm_refl, Hi]. exists ob. cbn. split; [exact Hi|]. split; [reflexivity|].
      intros y Hy. apply cell_write_other. intros ->. exact (rel_user _ w r R i ob _ Hi Hy (getn_In _ _ _ E)).
    - cbn. destruct (getn (w_user w) j); apply calm_refl, Hi.
    - cbn [w_step]. unfold with_arg. destruct (w_arg w a) as [x|e]; [|apply calm_refl, Hi].
      destruct (new_sim lt dflt x (elems (w_heap w) x) (w_heap w) Logic.eq_refl) as (L & C & _).
      destruct (h_new lt dflt x (w_heap w)) as [q h']. cbn [snd] in *. apply calm_new. exists ob. cbn. split; [exact Hi|]. split; [reflexivity|].
      intros y Hy. apply C. destruct (rel_good _ w r R i ob Hi) as [_ HF]. rewrite Forall_forall in HF. apply HF, Hy.
    - cbn [w_step]. apply (on_calm H0 w r); [exact R|exact Hi| |].
      + intros ob' Hob. apply (step_follows lt eq dflt o (w_heap w, ob')); [exact (rel_good _ w r R j ob' Hob)|exact Ho].
      + intros ->. destruct o; try destruct Ho; try (exfalso; apply Hc; reflexivity); apply reading_same.
    - cbn [w_step]. unfold with_arg. pose proof (arg_get cont H0 Hcont w r a R) as HA.
      destruct (w_arg w a) as [x|e]; [|apply calm_refl, Hi].
      apply (on_calm H0 w r); [exact R|exact Hi| |intros ->; exfalso; apply Hc; reflexivity].
      intros ob' Hob. apply (follows_obs_at runit (sl_update lt (elems (w_heap w) x)) _ (gives x (elems (w_heap w) x)) (w_heap w, ob')); [exact (rel_good _ w r R j ob' Hob)|reflexivity|].
      intros n. apply sim_update.
    - cbn [w_step]. unfold with_arg.
      destruct (w_arg w a) as [x|e]; [|apply calm_refl, Hi].
      apply (on_calm H0 w r); [exact R|exact Hi| |intros ->; exfalso; apply Hc; reflexivity].
      intros ob' Hob. apply (follows_obs_at runit (sl_update lt (elems (w_heap w) x)) _ (gives x (elems (w_heap w) x)) (w_heap w, ob')); [exact (rel_good _ w r R j ob' Hob)|reflexivity|].
      intros n. apply sim_update.
    - cbn [w_step]. unfold with_arg.
      destruct (w_arg w a) as [x|e]; [|apply calm_refl, Hi].
      apply (on_calm H0 w r); [exact R|exact Hi| |intros ->; apply reading_same].
      intros ob' Hob. apply (follows_obs (@RBool V) (compare (K:=V) lt eq op (elems (w_heap w) x)) _ (w_heap w, ob')); [exact (rel_good _ w r R j ob' Hob)|]. intros n. apply sim_reading, keeps_compare.
    - cbn [w_step].
      assert (X0 : calm w (snd (on_obj j (h_getitem_slice sl) Err w)) i ob).
      { eapply (sim_calm H0 w r i ob j any _ (getitem_slice sl)); [exact R|exact Hi| |intros; exact I|].
        - intros n. apply sim_getitem_slice.
        - intros _. split; [apply keeps_slice|apply quiet_slice]. }
      destruct (on_obj j (h_getitem_slice sl) Err w) as [[q|e] w']; exact X0.
    - cbn [w_step]. rewrite (surjective_pairing (on_obj j _ _ w)). apply calm_new.
      eapply (sim_calm H0 w r i ob j any newobj (sl_copy lt dflt)); [exact R|exact Hi| |intros; exact I|].
      + intros n. apply sim_copy.
      + intros _. split; [intros c; reflexivity|apply quiet_copy].
    - cbn [w_step]. unfold with_arg. pose proof (arg_get cont H0 Hcont w r a R) as HA.
      destruct (w_arg w a) as [x|e]; [|apply calm_refl, Hi]. rewrite (surjective_pairing (on_obj j _ _ w)). apply calm_new.
      destruct (r_arg cont r a) as [v|]; [|contradiction]. destruct HA as [Hv Hin].
      eapply (sim_calm H0 w r i ob j (fun s => gives x v s /\ arg_in x s) newobj (sl_plus lt dflt v)); [exact R|exact Hi| | |].
      + intros n. apply sim_plus.
      + intros o. split; [exact Hv|apply Hin].
      + intros _. split; [intros c; reflexivity|apply quiet_plus].
    - cbn [w_step]. rewrite (surjective_pairing (on_obj j _ _ w)). apply calm_new.
      eapply (sim_calm H0 w r i ob j any newobj (sl_mul lt dflt n)); [exact R|exact Hi| |intros; exact I|].
      + intros k. apply sim_mul.
      + intros _. split; [intros c; reflexivity|apply quiet_mul].
    - cbn [w_step]. rewrite (surjective_pairing (on_obj j _ _ w)). apply calm_new.
      eapply (sim_calm H0 w r i ob j any newobj (sl_reduce lt dflt)); [exact R|exact Hi| |intros; exact I|].
      + intros k. apply sim_reduce.
      + intros _. split; [intros c; reflexivity|apply quiet_reduce].
  Qed.
End Step.

Lemma nth_set_it l : forall i j x, i < length l -> nth_error (set_it l i x) j = if i =? j then Some x else nth_error l j.
Proof. induction l as [|y l IH]; intros [|i] [|j] x H; cbn in *; try lia; auto. apply IH. lia. Qed.

Section Len.
  Context {V : Type}.
  Variables lt eq : V -> V -> res bool.
  Variable dflt : nat.
  Lemma on_len {A} i (hm : heap V * hsl V -> A * (heap V * hsl V)) bad w : length (w_objs (snd (on_obj i hm bad w))) = length (w_objs w).
  Proof. unfold on_obj. destruct (getn (w_objs w) i) as [o|]; [|reflexivity]. destruct (hm _) as [x [h o']]. apply length_set_obj. Qed.
  Lemma new_len (p : res (hsl V) * world V) : length (w_objs (snd p)) <= length (w_objs (snd (new_obj p))).
  Proof. destruct p as [[o|e] w]; cbn; [rewrite app_length|]; lia. Qed.
  Lemma w_step_len o w : length (w_objs w) <= length (w_objs (snd (w_step lt eq dflt o w))).
  Proof.
    destruct o as [l|j l|j|a|j o|j a|j a|j op a|j sl|j|j a|j n|j]; cbn [w_step]; unfold with_arg.
    - cbn. lia.
    - destruct (getn (w_user w) j); cbn; lia.
    - destruct (getn (w_user w) j); cbn; lia.
    - destruct (w_arg w a); [|cbn; lia]. destruct (h_new _ _ _ _) as [q h]. etransitivity; [|apply new_len]. cbn. lia.
    - rewrite on_len. lia.
    - destruct (w_arg w a); [rewrite on_len|cbn]; lia.
    - destruct (w_arg w a); [rewrite on_len|cbn]; lia.
    - destruct (w_arg w a); [rewrite on_len|cbn]; lia.
    - pose proof (on_len j (h_getitem_slice sl) Err w) as X. destruct (on_obj _ _ _ w) as [[q|e] w']; cbn in *; lia.
    - etransitivity; [|apply new_len]. rewrite on_len. lia.
    - destruct (w_arg w a); [|cbn; lia]. etransitivity; [|apply new_len]. rewrite on_len. lia.
    - etransitivity; [|apply new_len]. rewrite on_len. lia.
    - etransitivity; [|apply new_len]. rewrite on_len. lia.
  Qed.
End Len.

Section Final.
  Context {V : Type}.
  Variables ltb eqb : V -> V -> bool.
  Hypothesis HT : TotalOrder ltb eqb.
  Variable dflt : nat.
  Hypothesis Hd : 1 <= dflt.
  Notation lt := (total2 ltb). Notation eq := (total2 eqb).
  Definition lrel : world V -> list (list V) * list (list V) -> Prop := rel (fun c l => sl_reach ltb eqb dflt c /\ shows c l).

  Lemma lrel_step w r o : lrel w r -> wop_ok o ->
    fst (w_step lt eq dflt o w) = fst (r_step (sp_step ltb eqb ltb) (fun l => Ok (sp_sort ltb l)) (fun l => l) o r) /\
    lrel (snd (w_step lt eq dflt o w)) (snd (r_step (sp_step ltb eqb ltb) (fun l => Ok (sp_sort ltb l)) (fun l => l) o r)).
  Proof.
    intros R Ho. apply (world_step lt eq dflt (sp_step ltb eqb ltb) (fun l => Ok (sp_sort ltb l)) (fun l => l)
      (fun c l => sl_reach ltb eqb dflt c /\ shows c l) lop_ok); try assumption.
    - intros [] Hn; try (exfalso; exact (Hn I)); exact I.
    - intros c x q Hq [HR HS]. destruct (do_ok ltb eqb dflt HT Hd c x q HR HS Hq) as (c' & E & HR' & HS').
      unfold sl_do in E. rewrite E. auto.
    - intros v. assert (HI : sl_reach ltb eqb dflt (sl_init dflt)) by (exists []; split; [constructor|reflexivity]).
      destruct (do_ok ltb eqb dflt HT Hd _ [] (LUpdate v) HI eq_refl I) as (c' & E & HR' & HS').
      unfold sl_do in E. cbn [sl_step sp_step fst snd] in *. unfold observe in E. unfold sl_new. unfold sl_init in E.
      destruct (sl_update (total2 ltb) v (core_empty dflt)) as [[u|e] c1]; [|discriminate].
      assert (c1 = c') by congruence. subst. split; [exact HR'|exact HS'].
    - intros c x [_ HS]. apply shows_iff, HS.
  Qed.

  Definition itrel (w : world V) (a : nat * iterator) (b : nat * rit V) : Prop :=
    fst a = fst b /\ exists ob, nth_error (w_objs w) (fst a) = Some ob /\
      match snd b with Live x => itval (w_heap w) (rows ob) (snd a) x | Lost => True | Ended => snd a = [] end.
  Definition irel (s : world V * list (nat * iterator)) (r : list (list V) * list (list V) * list (nat * rit V)) : Prop :=
    lrel (fst s) (fst r) /\ Forall2 (itrel (fst s)) (snd s) (snd r).

  Lemma itrel_calm w w' a b : (forall ob, nth_error (w_objs w) (fst a) = Some ob -> calm w w' (fst a) ob) -> itrel w a b -> itrel w' a b.
  Proof.
    intros HC (E & ob & Hi & H). split; [exact E|]. destruct (HC ob Hi) as (ob' & H1 & H2 & H3). exists ob'. split; [exact H1|].
    rewrite H2. destruct (snd b); auto. eapply itval_ext; [exact H3|exact H].
  Qed.
  Lemma getn_forall2 {A B} (P : A -> B -> Prop) l m k : Forall2 P l m ->
    match getn l k, getn m k with Ok a, Ok b => P a b | Err e, Err e' => e = e' | _, _ => False end.
  Proof.
    intros H. revert k. induction H as [|a b l m Hp H IH]; intros [|k]; cbn; try reflexivity; [exact Hp|]. apply IH.
  Qed.
  Lemma forall2_set w l m k a b : Forall2 (itrel w) l m -> itrel w a b -> Forall2 (itrel w) (set_it l k a) (replace m k b).
  Proof.
    intros H Hab. revert k. induction H as [|x y l m Hp H IH]; intros [|k]; cbn; constructor; auto.
  Qed.
  Lemma forall2_set1 w l m k a b : Forall2 (itrel w) l m -> getn m k = Ok b -> itrel w a b -> Forall2 (itrel w) (set_it l k a) m.
  Proof.
    intros H. revert k. induction H as [|x y l m Hp H IH]; intros [|k]; cbn; intros E Hab; constructor; auto.
    apply ok_inj in E as ->. exact Hab.
  Qed.

  Lemma i_step_ok s r o : irel s r -> iop_ok o ->
    match fst (ri_step ltb eqb o r) with Some x => fst (i_step lt eq dflt o s) = x | None => True end /\
    irel (snd (i_step lt eq dflt o s)) (snd (ri_step ltb eqb o r)).
  Proof.
    destruct s as [w its], r as [r rits]. intros [R HF] Ho. cbn [fst snd] in R, HF. destruct o as [o|i o|k]; cbn [i_step ri_step iop_ok] in *.
    - destruct (lrel_step w r o R Ho) as [E R'].
      assert (HC : forall i ob, changes o <> Some i -> nth_error (w_objs w) i = Some ob -> calm w (snd (w_step lt eq dflt o w)) i ob).
      { intros i ob Hn Hi. refine (step_calm lt eq dflt _ (fun l => l) _ w r o i ob R _ Hn Hi).
        - intros c x [_ HS]. apply shows_iff, HS.
        - destruct o; auto. apply Ho. }
      pose proof (w_step_len lt eq dflt o w) as HLen.
      destruct (w_step lt eq dflt o w) as [x w'], (r_step _ _ _ o r) as [y r']. cbn [fst snd] in *. split; [congruence|].
      split; [exact R'|]. cbn [fst snd]. induction HF as [|[i it] [i' st] l m Hp HF IH]; cbn [map]; constructor; [|exact IH].
      destruct Hp as (E2 & ob & Hi & Hv). cbn [fst snd] in *. subst i'.
      assert (HN : exists ob', nth_error (w_objs w') i = Some ob').
      { assert (HL : i < length (w_objs w)) by (apply nth_error_Some; congruence). pose proof (rel_len _ _ _ R) as L1. pose proof (rel_len _ _ _ R') as L2.
        assert (HL2 : i < length (w_objs w')) by (apply Nat.lt_le_trans with (1 := HL), HLen).
        destruct (nth_error (w_objs w') i) eqn:E3; [eauto|]. apply nth_error_None in E3. lia. }
      destruct HN as [ob' Hob']. unfold disturb. destruct (changes o) as [j|] eqn:Ec.
      + destruct st as [x0| |].
        * destruct (Nat.eqb_spec j i) as [->|Hn]; [split; [reflexivity|exists ob'; split; [exact Hob'|exact I]]|].
          apply (itrel_calm w w' (i, it) (i, Live x0)); [|split; [reflexivity|exists ob; split; [exact Hi|exact Hv]]]. intros ob2 H2. cbn [fst] in *. apply HC; [congruence|exact H2].
        * split; [reflexivity|exists ob'; split; [exact Hob'|exact I]].
        * split; [reflexivity|exists ob'; split; [exact Hob'|exact Hv]].
      + apply (itrel_calm w w' (i, it) (i, st)); [|split; [reflexivity|exists ob; split; [exact Hi|exact Hv]]]. intros ob2 H2. cbn [fst] in *. apply HC; [congruence|exact H2].
    - unfold on_obj. pose proof (objs_get _ w r i R) as HO.
      destruct (getn (w_objs w) i) as [ob|e], (getn (fst r) i) as [l|e']; try contradiction; [|subst e'; split; [reflexivity|split; assumption]].
      destruct HO as (Hi & Hl & HR & HS). assert (Hm : makes o) by (destruct o; exact Ho || exact I).
      assert (Hok : lop_ok o) by (destruct o; exact I || destruct Ho).
      destruct (do_ok ltb eqb dflt HT Hd _ l o HR HS Hok) as (c' & E & HR' & HS').
      assert (Hs : snd (sp_step ltb eqb ltb o l) = l) by (destruct o; try destruct Ho; reflexivity).
      assert (Hx : exists x, fst (sp_step ltb eqb ltb o l) = RList x).
      { pose proof (fun e => sp_documented ltb eqb ltb o l e) as HD. destruct o; try destruct Ho; try (eexists; reflexivity).
        cbn [sp_step fst] in *. unfold of_res in *. destruct (sp_slice _ _) as [y|e]; [eexists; reflexivity|]. destruct (HD e eq_refl). }
      destruct Hx as [x Ex]. rewrite Ex in *.
      destruct (make_ok lt eq dflt o (w_heap w, ob) x Hm) as (it & [h' ob'] & E1 & E2 & E3 & E4 & E5).
      { unfold sl_do in E. rewrite E. reflexivity. }
      unfold sl_do in E. rewrite E in E4. cbn [fst snd] in *. subst h'. rewrite E1. split; [reflexivity|].
      assert (RG : lrel (mkworld (w_heap w) (set_obj (w_objs w) i ob') (w_user w)) r).
      { replace r with (replace (fst r) i l, snd r) by (rewrite (replace_same _ _ _ Hl); destruct r; reflexivity).
        eapply rel_step; try eassumption.
        - destruct (rel_good _ w r R i ob Hi) as [G1 G2]. split; cbn [snd fst] in *; rewrite E3; assumption.
        - split; [cbn; lia|]. cbn [fst snd]. rewrite E3. split; [reflexivity|auto].
        - unfold holds. rewrite E4. rewrite Hs in HS'. auto. }
      split; [exact RG|]. cbn [fst snd].
      assert (HC : forall j ob2, nth_error (w_objs w) j = Some ob2 -> calm w (mkworld (w_heap w) (set_obj (w_objs w) i ob') (w_user w)) j ob2).
      { intros j ob2 Hj. unfold calm. cbn [w_objs w_heap]. rewrite nth_set_obj by (apply nth_error_Some; congruence).
        destruct (Nat.eqb_spec i j) as [->|]; [|eauto]. exists ob'. split; [reflexivity|]. split; [congruence|reflexivity]. }
      apply Forall2_app.
      + clear - HF HC. induction HF as [|a b l m Hp HF IH]; constructor; [|exact IH]. eapply itrel_calm; [|exact Hp]. intros ob2. apply HC.
      + constructor; [|constructor]. split; [reflexivity|]. exists ob'. cbn [fst snd w_objs w_heap].
        rewrite nth_set_obj by (apply nth_error_Some; congruence). rewrite Nat.eqb_refl. split; [reflexivity|]. rewrite E3. exact E5.
    - pose proof (getn_forall2 _ _ _ k HF) as HK. destruct (getn its k) as [[i it]|e] eqn:Ek, (getn rits k) as [[i' st]|e'] eqn:Ek'; try contradiction;
        [|subst; split; [reflexivity|split; assumption]].
      destruct HK as (E & ob & Hi & Hv). cbn [fst snd] in *. subst i'.
      assert (Eo : getn (w_objs w) i = Ok ob) by (apply getn_nth, Hi). rewrite Eo. destruct st as [x| |].
      + pose proof (next_ok (w_heap w) (rows ob) it x Hv) as X. destruct x as [|v t].
        * rewrite X. split; [reflexivity|]. split; [exact R|]. apply forall2_set; [exact HF|]. split; [reflexivity|]. exists ob. cbn [fst snd w_objs w_heap]. auto.
        * destruct X as (it' & -> & Hv'). split; [reflexivity|]. split; [exact R|]. apply forall2_set; [exact HF|]. split; [reflexivity|]. exists ob. cbn [fst snd w_objs w_heap]. auto.
      + destruct (next (w_heap w) (rows ob) it) as [q it']. split; [exact I|]. split; [exact R|]. cbn [fst snd].
        eapply forall2_set1; [exact HF|exact Ek'|]. split; [reflexivity|]. exists ob. cbn [fst snd w_objs w_heap]. auto.
      + subst it. cbn [next]. split; [reflexivity|]. split; [exact R|]. cbn [fst snd].
        eapply forall2_set1; [exact HF|exact Ek'|]. split; [reflexivity|]. exists ob. cbn [fst snd w_objs w_heap]. auto.
  Qed.
  Lemma i_run_ok ops : forall s r, irel s r -> Forall iop_ok ops ->
    as_specified (fst (i_run lt eq dflt ops s)) (fst (ri_run ltb eqb ops r)) /\ irel (snd (i_run lt eq dflt ops s)) (snd (ri_run ltb eqb ops r)).
  Proof.
    unfold i_run, ri_run. induction ops as [|o ops IH]; intros s r R HF; [split; [constructor|exact R]|].
    apply Forall_cons_iff in HF as [Ho HF]. destruct (i_step_ok s r o R Ho) as [E R1]. cbn [run].
    destruct (i_step lt eq dflt o s) as [x s1], (ri_step ltb eqb o r) as [y r1]. cbn [fst snd] in *.
    destruct (IH s1 r1 R1 HF) as [E2 R2]. destruct (run (i_step lt eq dflt) ops s1) as [xs s2], (run (ri_step ltb eqb) ops r1) as [ys r2].
    cbn [fst snd] in *. split; [constructor; assumption|exact R2].
  Qed.
End Final.

Lemma c78_iterators : forall (V : Type) (ltb eqb : V -> V -> bool) (dflt : nat) (ops : list (iop V)),
  TotalOrder ltb eqb -> 1 <= dflt -> Forall iop_ok ops ->
  as_specified (fst (i_run (total2 ltb) (total2 eqb) dflt ops i_init)) (fst (ri_run ltb eqb ops ([], [], []))).
Proof.
  intros V ltb eqb dflt ops HT Hd HF. apply (i_run_ok ltb eqb HT dflt Hd ops i_init ([], [], [])); [|exact HF].
  split; [apply rel_init|constructor].
Qed.


(** The end is final. *)
Lemma c78_end_is_final : forall (V : Type) (h h' : heap V) (rs rs' : list ref) (it it' : iterator),
  next h rs it = (Ok None, it') -> next h' rs' it' = (Ok None, it').
Proof.
  intros V h h' rs rs' it. induction it as [|s it IH]; intros it'; cbn [next].
  - intros E. injection E as <-. reflexivity.
  - destruct (seg_next h rs s) as [[[v|]|e] s']; try discriminate. apply IH.
Qed.

(** [iter] and [reversed] raise nothing, whatever happens to the list in between. *)
Definition whole (s : seg) : Prop := match s with SFlat (OFwd _ | OBack _ | ODone) _ _ => True | _ => False end.
Definition left_of (rs : list ref) (o : outer) : nat :=
  match o with OFwd i => length rs - i | OBack k => if k <=? length rs then k else 0 | OAt l => length l | ODone => 0 end.
Lemma flat_total {V} (h : heap V) rs : forall fuel o back cur, whole (SFlat o back cur) ->
  2 * left_of rs o + match cur with Some _ => 2 | None => 1 end <= fuel ->
  exists v s', flat_next h rs fuel o back cur = (Ok v, s') /\ whole s'.
Proof.
  induction fuel as [|fuel IH]; intros o back cur Hw Hf; [destruct cur; lia|]. cbn [flat_next]. destruct cur as [x|].
  - destruct (inner_next h x) as [[v x']|]; [eexists _, _; split; [reflexivity|]; destruct o; exact Hw|]. apply IH; [destruct o; exact Hw|lia].
  - destruct o as [i|[|k]|l|]; cbn [outer_next]; try contradiction; try (eexists _, _; split; [reflexivity|exact I]).
    + destruct (nth_error rs i) as [r|] eqn:E; [|eexists _, _; split; [reflexivity|exact I]]. apply IH; [exact I|]. cbn [left_of] in *.
      assert (i < length rs) by (apply nth_error_Some; congruence). lia.
    + destruct (nth_error rs k) as [r|] eqn:E; [|eexists _, _; split; [reflexivity|exact I]]. apply IH; [exact I|]. cbn [left_of] in *.
      assert (k < length rs) by (apply nth_error_Some; congruence).
      destruct (Nat.leb_spec (S k) (length rs)); [|lia]. destruct (Nat.leb_spec k (length rs)); lia.
Qed.
Lemma next_total {V} (h : heap V) rs it : Forall whole it -> exists v it', next h rs it = (Ok v, it') /\ Forall whole it'.
Proof.
  induction it as [|s it IH]; intros HF; [exists None, []; split; [reflexivity|constructor]|]. apply Forall_cons_iff in HF as [Hs HF].
  destruct s as [r ix|o back cur]; [destruct Hs|]. cbn [next seg_next].
  destruct (flat_total h rs (flat_fuel rs o) o back cur Hs) as (v & s' & E & Hs').
  { unfold flat_fuel, left_of. destruct o as [i|k|l|]; try destruct Hs; try destruct (Nat.leb_spec k (length rs)); destruct cur; lia. }
  rewrite E. destruct v as [v|]; [|apply IH, HF]. eexists _, _. split; [reflexivity|]. constructor; assumption.
Qed.
Lemma nexts_total {V} : forall (states : list (heap V * list ref)) it, Forall whole it -> Forall (fun r => exists v, r = Ok v) (nexts states it).
Proof.
  induction states as [|[h rs] t IH]; intros it Hw; cbn; [constructor|]. destruct (next_total h rs it Hw) as (v & it' & -> & Hw').
  constructor; [eauto|apply IH, Hw'].
Qed.
Lemma c78_iter_never_raises : forall (V : Type) (lt : V -> V -> res bool) (o : lop V) (s : heap V * hsl V) (states : list (heap V * list ref)) it s',
  o = LIter \/ o = LReversed -> it_make lt o s = (Ok it, s') ->
  Forall (fun r => exists v, r = Ok v) (nexts states it).
Proof.
  intros V lt o s states it s' Ho E. apply nexts_total.
  destruct Ho as [-> | ->]; cbn in E; injection E as <- _; repeat constructor.
Qed.



(** * Operations keep the positional index small *)
From Coq Require Import List Arith Lia ZArith.
From Verif Require Import PyBase BaseFacts Model Spec History Shape IndexFacts FaultSpec BalanceSpec.
Import ListNotations.
Local Unset Implicit Arguments.

(** ** Predicates every operation keeps, whether it raises or not *)
Definition keeps {S A} (P : S -> Prop) (m : M S A) : Prop := forall s, P s -> P (snd (m s)).

Section Keeps.
  Context {S : Type} (P : S -> Prop).
  Lemma keeps_ret {A} (a : A) : keeps P (ret a).
  Proof. now intros s H. Qed.
  Lemma keeps_raise {A} e : keeps (A:=A) P (raise e).
  Proof. now intros s H. Qed.
  Lemma keeps_get : keeps P get.
  Proof. now intros s H. Qed.
  Lemma keeps_liftr {A} (r : res A) : keeps P (liftr r).
  Proof. now intros s H. Qed.
  Lemma keeps_bind {A B} (m : M S A) (k : A -> M S B) : keeps P m -> (forall a, keeps P (k a)) -> keeps P (bind m k).
  Proof.
    intros Hm Hk s H. unfold bind. specialize (Hm s H).
    destruct (m s) as [[a|e] s1]; [exact (Hk a s1 Hm)|exact Hm].
  Qed.
  Lemma keeps_modify f : (forall s, P s -> P (f s)) -> keeps P (modify f).
  Proof. intros Hf s H. now apply Hf. Qed.
  Lemma keeps_modifyR f : (forall s s', P s -> f s = Ok s' -> P s') -> keeps P (modifyR f).
  Proof. intros Hf s H. unfold modifyR. destruct (f s) as [s1|e] eqn:E; [exact (Hf s s1 H E)|exact H]. Qed.
  Lemma keeps_mapM {A B} (f : A -> M S B) l : (forall a, keeps P (f a)) -> keeps P (mapM f l).
  Proof.
    intros Hf. induction l as [|a t IH]; cbn [mapM]; [apply keeps_ret|].
    apply keeps_bind; [apply Hf|]. intros b. apply keeps_bind; [exact IH|]. intros. apply keeps_ret.
  Qed.
  Lemma keeps_forM {A} (f : A -> M S unit) l : (forall a, keeps P (f a)) -> keeps P (forM f l).
  Proof.
    intros Hf. induction l as [|a t IH]; cbn [forM]; [apply keeps_ret|].
    apply keeps_bind; [apply Hf|]. intros _. exact IH.
  Qed.
  Lemma keeps_zoom {T A} (g : S -> T) (p : T -> S -> S) (Q : T -> Prop) (m : M T A) :
    (forall s, P s -> Q (g s)) -> (forall t s, P s -> Q t -> P (p t s)) -> keeps Q m -> keeps P (zoom g p m).
  Proof.
    intros Hg Hp Hm s H. unfold zoom. specialize (Hm (g s) (Hg s H)).
    destruct (m (g s)) as [r t]. cbn [snd] in *. now apply Hp.
  Qed.
End Keeps.

(** ** Lengths *)
Lemma updn_len {A} (l l' : list A) i f : updn l i f = Ok l' -> length l' = length l.
Proof.
  revert i l'. induction l as [|x t IH]; intros [|i] l'; cbn; try discriminate.
  - destruct (f x); cbn; [|discriminate]. intros H. injection H as <-. reflexivity.
  - destruct (updn t i f) eqn:E; cbn; [|discriminate]. intros H. injection H as <-. cbn. f_equal. eapply IH, E.
Qed.
Lemma setn_len {A} (l l' : list A) i x : setn l i x = Ok l' -> length l' = length l.
Proof. unfold setn. intros H. eapply updn_len. exact H. Qed.
Lemma insn_len {A} (l : list A) i x : length (insn l i x) = S (length l).
Proof.
  unfold insn. rewrite app_length. cbn [length]. rewrite firstn_length, skipn_length.
  lia.
Qed.
Lemma walk_up_len f fuel : forall child ix ix', walk_up f fuel child ix = Ok ix' -> length ix' = length ix.
Proof.
  induction fuel as [|n IH]; intros child ix ix'; cbn [walk_up]; [discriminate|].
  destruct (child =? 0); [intros H; injection H as <-; reflexivity|].
  destruct (updn ix child f) eqn:E; cbn [rbind]; [|discriminate].
  intros H. apply IH in H. now rewrite H, (updn_len _ _ _ _ E).
Qed.
Lemma index_walk_len f child ix ix' : index_walk f child ix = Ok ix' -> length ix' = length ix.
Proof.
  unfold index_walk. destruct (walk_up f (S child) child ix) eqn:E; cbn [rbind]; [|discriminate].
  intros H. apply updn_len in H. now rewrite H, (walk_up_len _ _ _ _ _ E).
Qed.

(** ** The index is small *)
Definition small {V K} (c : core V K) : Prop :=
  index c = [] \/ offset c + 1 <= 2 * length (lists c).

Lemma small_log (n : nat) : 2 <= n -> 2 ^ (Nat.log2 (n - 1) + 1) <= 2 * (n - 1).
Proof.
  intros H. rewrite Nat.add_1_r, Nat.pow_succ_r'.
  pose proof (Nat.log2_spec (n - 1)) as L. lia.
Qed.

Section Small.
  Context {V K : Type}.
  Notation C := (core V K).

  Lemma small_inc (c c' : C) pos : small c -> index_inc c pos = Ok c' -> small c'.
  Proof.
    unfold index_inc. destruct (is_nil (index c)); [intros H E; injection E as <-; exact H|].
    destruct (index_walk _ _ _) as [ix|] eqn:E; cbn [rbind]; [|discriminate].
    intros H Q. injection Q as <-. apply index_walk_len in E.
    destruct H as [H|H]; [left|right; exact H].
    cbn. rewrite H in E. now destruct ix.
  Qed.
  Lemma small_dec (c c' : C) pos : small c -> index_dec c pos = Ok c' -> small c'.
  Proof.
    unfold index_dec. destruct (is_nil (index c)); [intros H E; injection E as <-; exact H|].
    destruct (index_walk _ _ _) as [ix|] eqn:E; cbn [rbind]; [|discriminate].
    intros H Q. injection Q as <-. apply index_walk_len in E.
    destruct H as [H|H]; [left|right; exact H].
    cbn. rewrite H in E. now destruct ix.
  Qed.

  Lemma build_small : keeps (@small V K) build_index.
  Proof.
    apply keeps_modifyR. intros c c' _. cbv zeta.
    destruct (length (map (@length V) (lists c)) =? 1) eqn:E1.
    { intros H. injection H as <-. right. cbn. apply Nat.eqb_eq in E1. rewrite map_length in E1. lia. }
    destruct (if Nat.odd _ then _ else _) as [row1|] eqn:Er; cbn [rbind]; [|discriminate].
    assert (Hl : 2 * length row1 <= length (lists c) + 1).
    { rewrite map_length in *. destruct (pair_sums_spec _ (map (@length V) (lists c)) (le_n _)) as [Hp _].
      rewrite map_length in Hp.
      destruct (Nat.odd (length (lists c))) eqn:Eo.
      - destruct (getlast _); cbn [rbind] in Er; [|discriminate]. injection Er as <-. rewrite app_length, Hp. cbn [length].
        apply Nat.odd_spec in Eo. destruct Eo as [k ->].
        replace (2 * k + 1) with (1 + k * 2) by lia. rewrite Nat.div_add by lia. cbn. lia.
      - injection Er as <-. rewrite Hp. pose proof (Nat.div_mod (length (lists c)) 2). lia. }
    destruct (length row1 =? 1) eqn:E2.
    { intros H. injection H as <-. right. cbn [offset lists maxes set_offset set_index]. apply Nat.eqb_eq in E2. lia. }
    destruct (length row1 =? 0) eqn:E3; [discriminate|].
    apply Nat.eqb_neq in E2, E3.
    destruct (build_index_sized _ _ _) as [p|] eqn:Eb; cbn [rbind]; [|discriminate].
    intros H. injection H as <-. right. cbn [offset lists maxes set_offset set_index].
    unfold build_index_sized in Eb. destruct (tree_rows _ _); cbn [rbind] in Eb; [|discriminate].
    injection Eb as <-. cbn [snd].
    pose proof (small_log (length row1) ltac:(lia)). lia.
  Qed.
End Small.

(** ** Every operation keeps it *)
Create HintDb keepdb.
Ltac keep := repeat first
  [ apply keeps_ret | apply keeps_raise | apply keeps_get | apply keeps_liftr
  | solve [auto with keepdb]
  | match goal with
    | |- keeps _ (if ?b then _ else _) => destruct b
    | |- keeps _ (match ?x with _ => _ end) => destruct x
    | |- keeps _ (let _ := _ in _) => cbv zeta
    end
  | apply keeps_mapM; intros ?
  | apply keeps_forM; intros ?
  | apply keeps_bind; [|intros ?] ].

(** Take apart the computation of a new state. *)
Ltac crack := repeat match goal with
  | H : rbind ?m _ = Ok _ |- _ => let E := fresh "E" in destruct m eqn:E; cbn [rbind] in H; [|discriminate H]
  | H : (let! _ := ?m in _) = Ok _ |- _ => let E := fresh "E" in destruct m eqn:E; cbn [rbind] in H; [|discriminate H]
  end;
  repeat match goal with
  | H : updn _ _ _ = Ok _ |- _ => apply updn_len in H
  | H : setn _ _ _ = Ok _ |- _ => apply setn_len in H
  end.

(** Also the two outer lists have length [n]. *)
Definition level {V K} (n : nat) (c : core V K) : Prop :=
  length (maxes c) = n /\ length (lists c) = n /\ small c.

Section SmallOps.
  Context {V K : Type} (n : nat).
  Notation sm := (@level V K n).
  Lemma build_lists (c : core V K) :
    lists (snd (build_index c)) = lists c /\ maxes (snd (build_index c)) = maxes c.
  Proof.
    unfold build_index, modifyR. cbv zeta.
    destruct (_ =? 1); [split; reflexivity|].
    destruct (if Nat.odd _ then _ else _) as [row1|]; cbn [rbind]; [|split; reflexivity].
    destruct (_ =? 1); [split; reflexivity|]. destruct (_ =? 0); [split; reflexivity|].
    destruct (build_index_sized _ _ _); cbn [rbind]; split; reflexivity.
  Qed.
  Lemma build_level : keeps sm build_index.
  Proof.
    intros c (H1 & H2 & H3). destruct (build_lists c) as [E1 E2]. split; [now rewrite E2|]. split; [now rewrite E1|].
    now apply build_small.
  Qed.
  Lemma ensure_small : keeps sm ensure_index.
  Proof. unfold ensure_index. apply keeps_bind; [apply keeps_get|]. intros c. destruct (is_nil _); [apply build_level|apply keeps_ret]. Qed.
  Lemma loc_small pos idx : keeps sm (loc pos idx).
  Proof. pose proof ensure_small. unfold loc. keep. Qed.
  Lemma pos_of_small i : keeps sm (pos_of i).
  Proof. pose proof ensure_small. unfold pos_of, pos_nonneg, pos_tree. keep. Qed.
  Lemma getitem_small i : keeps sm (getitem_int i).
  Proof. pose proof pos_of_small. unfold getitem_int. keep. Qed.
  Lemma slice_small sl : keeps sm (getitem_slice sl).
  Proof.
    pose proof pos_of_small. pose proof getitem_small. unfold getitem_slice, getitem_slice_rec, getitem_fwd. keep.
  Qed.
  Lemma islice_small a b r : keeps sm (islice a b r).
  Proof. pose proof pos_of_small. unfold islice. keep. Qed.
End SmallOps.

(** From [P], the operation ends in [Q], whether it raises or not. *)
Definition leads_to {S A} (P Q : S -> Prop) (m : M S A) : Prop := forall s, P s -> Q (snd (m s)).
Lemma leads_keep {S A} (P Q : S -> Prop) (m : M S A) : (forall s, P s -> Q s) -> keeps P m -> leads_to P Q m.
Proof. intros H Hm s Hs. apply H, Hm, Hs. Qed.
Lemma leads_bind {S A B} (P Q : S -> Prop) (m : M S A) (k : A -> M S B) :
  (forall s, P s -> Q s) -> keeps P m -> (forall a, leads_to P Q (k a)) -> leads_to P Q (bind m k).
Proof.
  intros HPQ Hm Hk s H. unfold bind. specialize (Hm s H).
  destruct (m s) as [[a|e] s1]; [exact (Hk a s1 Hm)|apply HPQ; exact Hm].
Qed.

Ltac lead H := repeat first
  [ solve [auto with keepdb]
  | solve [apply leads_keep; [exact H|keep]]
  | match goal with
    | |- leads_to _ _ (if ?b then _ else _) => destruct b
    | |- leads_to _ _ (match ?x with _ => _ end) => destruct x
    | |- leads_to _ _ (let _ := _ in _) => cbv zeta
    end
  | apply leads_bind; [exact H|keep|intros ?] ].

Section SmallInherited.
  Context {S V K : Type} (T : vtable S V K).
  (** [P]: what holds between operations; [Q]: what holds even after a failed [update]. *)
  Variables P Q : S -> Prop.
  Hypothesis HPQ : forall s, P s -> Q s.
  Hypothesis Hcore : forall A (m : M (core V K) A), (forall n, keeps (level n) m) -> keeps P (oncore T m).
  Hypothesis Hclear : keeps P (vt_clear T).
  Hypothesis Hupdate : forall it, leads_to P Q (vt_update T it).
  Hypothesis Hdelete : forall p i, keeps P (vt_delete T p i).

  Lemma oncore_get_small : keeps P (oncore T get).
  Proof. apply Hcore. intros n. apply keeps_get. Qed.
  Lemma oncore_pos_small i : keeps P (oncore T (pos_of i)).
  Proof. apply Hcore. intros n. apply pos_of_small. Qed.
  Lemma oncore_slice_small sl : keeps P (oncore T (getitem_slice sl)).
  Proof. apply Hcore. intros n. apply slice_small. Qed.
  Lemma oncore_load_small ld : keeps P (oncore T (modify (set_load ld))).
  Proof. apply Hcore. intros n. apply keeps_modify. intros s H. exact H. Qed.
  Hint Resolve oncore_get_small oncore_pos_small oncore_slice_small oncore_load_small : keepdb.

  Lemma del_small i : keeps P (delitem_int T i).
  Proof. unfold delitem_int. keep. Qed.
  Hint Resolve del_small : keepdb.
  Lemma delslice_small sl : leads_to P Q (delitem_slice T sl).
  Proof. unfold delitem_slice. lead HPQ. Qed.
  Lemma pop_small i : keeps P (pop T i).
  Proof. unfold pop. keep. Qed.
  Lemma reset_small ld : leads_to P Q (reset T ld).
  Proof. unfold reset. lead HPQ. Qed.
  Lemma iadd_small it : leads_to P Q (iadd T it).
  Proof. unfold iadd. auto. Qed.
  Lemma imul_small n : leads_to P Q (imul T n).
  Proof. unfold imul. lead HPQ. Qed.
End SmallInherited.

Lemma observe_leads {S V A} (P Q : S -> Prop) (inj : A -> out V) (m : M S A) s :
  leads_to P Q m -> P s -> Q (snd (observe inj m s)).
Proof.
  intros Hm H. unfold observe. specialize (Hm s H). destruct (m s) as [[a|e] s1]; exact Hm.
Qed.
Lemma rebind_leads {S V} (P Q : S -> Prop) (m : M S S) (s : S) :
  (forall n s1, m s = (Ok n, s1) -> Q n) -> leads_to P Q m -> P s -> Q (snd (rebind (V:=V) m s)).
Proof.
  intros Hn Hm H. unfold rebind. specialize (Hm s H). destruct (m s) as [[a|e] s1]; [|exact Hm].
  eapply Hn. reflexivity.
Qed.

(** ** SortedList *)
Section SmallList.
  Context {V : Type}.
  Variables lt eq : V -> V -> res bool.
  Variable dflt : nat.
  Notation sm := (@small V V).
  Definition slevel (c : core V V) : Prop := level (length (lists c)) c.

  Lemma slevel_small c : slevel c -> sm c.
  Proof. intros H. apply H. Qed.
  Lemma slevel_intro (c : core V V) : length (maxes c) = length (lists c) -> sm c -> slevel c.
  Proof. intros H1 H2. now split. Qed.
  Lemma slevel_nil (c : core V V) : length (maxes c) = length (lists c) -> index c = [] -> slevel c.
  Proof. intros H1 H2. apply slevel_intro; [exact H1|now left]. Qed.

  Lemma sl_core_small A (m : M (core V V) A) : (forall n, keeps (level n) m) -> keeps slevel (oncore (sl_vt lt) m).
  Proof.
    intros H s Hs. unfold oncore, zoom. cbn [vt_get vt_put sl_vt]. specialize (H _ s Hs).
    destruct (m s) as [r t]. cbn [snd] in *. destruct H as (H1 & H2 & H3). apply slevel_intro; [congruence|exact H3].
  Qed.
  Lemma sl_clear_small : keeps slevel sl_clear.
  Proof. apply keeps_modify. intros c _. now apply slevel_nil. Qed.
  Lemma sl_expand_small pos : keeps slevel (sl_expand pos).
  Proof.
    apply keeps_modifyR. intros c c' H E. destruct (getn (lists c) pos) as [l|]; cbn [rbind] in E; [|discriminate].
    destruct (_ <? _).
    - crack. injection E as <-. apply slevel_nil; [|reflexivity]. cbn. rewrite !insn_len.
      destruct H as (H1 & _ & _). congruence.
    - pose proof (small_inc _ _ _ (slevel_small _ H) E) as Hs. apply slevel_intro; [|exact Hs].
      unfold index_inc in E. destruct H as (H1 & H2 & _).
      destruct (is_nil _); [now injection E as <-|]. crack. now injection E as <-.
  Qed.
  Lemma sl_lists_small p f :
    keeps slevel (modifyR (fun c => let! ls := updn (lists c) p f in Ok (set_lists ls c))).
  Proof.
    apply keeps_modifyR. intros c c' (H1 & H2 & H) E. crack. injection E as <-. apply slevel_intro; [cbn; congruence|].
    destruct H as [H|H]; [now left|right]. cbn. lia.
  Qed.
  Lemma sl_maxes_small p x :
    keeps slevel (modifyR (fun c => let! ms := setn (maxes c) p x in Ok (set_maxes ms c))).
  Proof.
    apply keeps_modifyR. intros c c' (H1 & H2 & H) E. crack. injection E as <-. apply slevel_intro; [cbn; congruence|].
    exact H.
  Qed.
  Lemma sl_last_small p (l : core V V -> res (list V)) :
    keeps slevel (modifyR (fun c => let! l := l c in let! m := getlast l in let! ms := setn (maxes c) p m in Ok (set_maxes ms c))).
  Proof.
    apply keeps_modifyR. intros c c' (H1 & H2 & H) E. crack. injection E as <-. apply slevel_intro; [cbn; congruence|].
    exact H.
  Qed.
  Hint Resolve sl_clear_small sl_expand_small sl_lists_small sl_maxes_small : keepdb.

  Lemma sl_add_small v : keeps slevel (sl_add lt v).
  Proof.
    assert (H1 : keeps slevel (modify (fun c => set_maxes (maxes c ++ [v]) (set_lists (lists c ++ [[v]]) c)))).
    { apply keeps_modify. intros s (H1 & H2 & H). apply slevel_intro; [cbn; rewrite !app_length; cbn; lia|].
      destruct H as [H|H]; [now left|right]. cbn. rewrite !app_length. lia. }
    assert (H2 : keeps slevel (modify (fun c => set_len (len c + 1) c))).
    { apply keeps_modify. intros s H. exact H. }
    unfold sl_add. keep.
  Qed.
  Lemma sl_fill_small vs : leads_to slevel sm (sl_fill vs).
  Proof.
    intros c H. apply slevel_small in H. revert H. revert c. apply keeps_modifyR.
    intros c c' H E. crack. injection E as <-. now left.
  Qed.
  Lemma sl_update_small it : leads_to slevel sm (sl_update lt it).
  Proof.
    pose proof sl_fill_small as Hf. pose proof sl_add_small as Ha.
    unfold sl_update. apply leads_bind; [exact slevel_small|keep|intros values].
    apply leads_bind; [exact slevel_small|keep|intros c].
    destruct (is_nil _); [apply Hf|]. destruct (_ <=? _); [|apply leads_keep; [exact slevel_small|keep]].
    intros s (H1 & H2 & H). unfold bind at 1, modify. 
    set (s1 := set_lists (lists s ++ [values]) s). 
    assert (Hs1 : sm s1). { destruct H as [H|H]; [now left|right]. cbn. rewrite app_length. lia. }
    unfold bind at 1, get. unfold bind at 1, liftr.
    destruct (py_sorted lt _) as [vs|]; [|exact Hs1]. unfold bind at 1, sl_clear, modify.
    apply Hf. now apply slevel_nil.
  Qed.
  Lemma sl_new_small it c : sl_new lt dflt it = Ok c -> sm c.
  Proof.
    unfold sl_new. pose proof (sl_update_small it (core_empty dflt) ltac:(now apply slevel_nil)) as H.
    destruct (sl_update lt it _) as [[[]|] s]; [|discriminate]. intros E. injection E as <-. exact H.
  Qed.
  Lemma deln_len {A} (l l' : list A) i : deln l i = Ok l' -> i < length l /\ length l = S (length l').
  Proof.
    unfold deln. destruct (i <? length l) eqn:E; [|discriminate]. apply Nat.ltb_lt in E. intros H.
    assert (l' = firstn i l ++ skipn (S i) l) as -> by congruence.
    split; [exact E|]. rewrite app_length, firstn_length, skipn_length. lia.
  Qed.
  Lemma deln_some {A} (l : list A) i : i < length l -> exists l', deln l i = Ok l'.
  Proof. unfold deln. intros H. apply Nat.ltb_lt in H. rewrite H. eauto. Qed.
  Lemma sl_drop_small p (k : M (core V V) unit) : keeps slevel k ->
    keeps slevel (bind (modifyR (fun c => let! ls := deln (lists c) p in Ok (set_lists ls c)))
               (fun _ => bind (modifyR (fun c => let! ms := deln (maxes c) p in Ok (set_maxes ms c)))
               (fun _ => bind (modify (set_index [])) (fun _ => k)))).
  Proof.
    intros Hk s H. unfold bind, modifyR at 1. destruct (deln (lists s) p) as [ls|] eqn:E1; cbn [rbind]; [|exact H].
    destruct H as (H1 & H2 & H). apply deln_len in E1. destruct E1 as [E1 E2].
    unfold modifyR. cbn [maxes set_lists]. destruct (deln_some (maxes s) p ltac:(lia)) as [ms E3].
    rewrite E3. cbn [rbind]. unfold modify. apply Hk. apply deln_len in E3. apply slevel_nil; [|reflexivity]. cbn. lia.
  Qed.
  Lemma sl_delete_small p i : keeps slevel (sl_delete p i).
  Proof.
    assert (Hl : keeps slevel (modifyR (fun c => let! n := subc (len c) 1 in Ok (set_len n c)))).
    { apply keeps_modifyR. intros c c' H E. crack. injection E as <-. exact H. }
    assert (Hd : forall p, keeps slevel (modifyR (fun c => index_dec c p))).
    { intros q. apply keeps_modifyR. intros c c' H E. pose proof (small_dec _ _ _ (slevel_small _ H) E) as Hs.
      apply slevel_intro; [|exact Hs]. unfold index_dec in E. destruct H as (H1 & H2 & _).
      destruct (is_nil _); [now injection E as <-|]. crack. now injection E as <-. }
    assert (Hm : forall p (l : list V), keeps slevel (modifyR (fun c => let! m := getlast l in let! ms := setn (maxes c) p m in Ok (set_maxes ms c)))).
    { intros q l. apply (sl_last_small q (fun _ => Ok l)). }
    assert (Hx : forall p q, keeps slevel (modifyR (fun c => let! lp := getn (lists c) p in
                let! ls := updn (lists c) q (fun l => Ok (l ++ lp)) in Ok (set_lists ls c)))).
    { intros q r. apply keeps_modifyR. intros c c' (H1 & H2 & H) E. crack. injection E as <-.
      apply slevel_intro; [cbn; congruence|]. destruct H as [H|H]; [now left|right]. cbn. lia. }
    unfold sl_delete.
    apply keeps_bind; [keep|intros _]. apply keeps_bind; [keep|intros _]. apply keeps_bind; [keep|intros c].
    apply keeps_bind; [keep|intros lp]. cbv zeta. destruct (_ <? _); [keep|]. destruct (1 <? _).
    - apply keeps_bind; [auto with keepdb|intros _]. apply keeps_bind; [apply sl_last_small|intros _].
      apply sl_drop_small. apply sl_expand_small.
    - destruct (0 <? _); [keep|].
      intros s H. pose proof (sl_drop_small p (ret tt) (keeps_ret _ tt) s H) as G. unfold bind, modify, ret in *.
      destruct (modifyR _ s) as [[[]|] s1]; [|exact G]. destruct (modifyR _ s1) as [[[]|] s2]; exact G.
  Qed.

  Lemma sl_bisect_right_small n v : keeps (level n) (sl_bisect_right lt v).
  Proof. pose proof (loc_small (V:=V) (K:=V) n). unfold sl_bisect_right. keep. Qed.

  Lemma sl_step_small o c : slevel c -> sm (snd (sl_step lt eq dflt o c)).
  Proof.
    intros H.
    assert (HQ : forall A (inj : A -> out V) (m : M (core V V) A), keeps slevel m -> sm (snd (observe inj m c))).
    { intros A inj m Hm. apply (observe_leads slevel sm); [apply leads_keep; [exact slevel_small|exact Hm]|exact H]. }
    assert (HN : forall A (inj : A -> out V) (m : M (core V V) A), (forall n, keeps (level n) m) -> sm (snd (observe inj m c))).
    { intros A inj m Hm. apply HQ. intros s Hs. specialize (Hm _ s Hs). destruct Hm as (G1 & G2 & G3).
      apply slevel_intro; [congruence|exact G3]. }
    assert (HU : forall A (inj : A -> out V) (m : M (core V V) A), leads_to slevel sm m -> sm (snd (observe inj m c))).
    { intros A inj m Hm. now apply (observe_leads slevel sm). }
    assert (HR : forall m : core V V -> res (core V V), (forall s n, m s = Ok n -> sm n) ->
              sm (snd (rebind (V:=V) (bind get (fun s => liftr (m s))) c))).
    { intros m Hm. apply (rebind_leads slevel sm); [| |exact H].
      - intros n s1 E. unfold bind, get, liftr in E. assert (m c = Ok n) as E' by congruence. eapply Hm, E'.
      - apply leads_keep; [exact slevel_small|]. keep. }
    pose proof (sl_core_small) as Hc. pose proof sl_delete_small as Hd. pose proof sl_update_small as Hu.
    pose proof sl_clear_small as Hcl.
    pose proof (loc_small (V:=V) (K:=V)) as Hloc.
    pose proof sl_bisect_right_small as Hbr.
    destruct o; cbn [sl_step].
    - apply HQ, sl_add_small.
    - apply HU, sl_update_small.
    - apply HQ, sl_clear_small.
    - apply HQ. unfold sl_discard. keep.
    - apply HQ. unfold sl_remove. keep.
    - apply HQ. unfold sl_contains. keep.
    - apply HN. intros n. apply getitem_small.
    - apply HN. intros n. apply slice_small.
    - apply HQ. apply del_small; auto.
    - apply HU. apply delslice_small with (P := slevel); auto using slevel_small.
    - apply HQ. apply pop_small; auto.
    - apply HQ. unfold length_of. keep.
    - apply HQ. unfold iter. keep.
    - apply HQ. unfold reversed. keep.
    - apply HN. intros n. specialize (Hloc n). unfold sl_bisect_left. keep.
    - apply HN. intros n. auto.
    - apply HN. intros n. specialize (Hloc n). unfold sl_count. keep.
    - apply HN. intros n. specialize (Hloc n). specialize (Hbr n). unfold sl_index. keep.
    - apply HQ. unfold sl_irange. keep.
    - apply HN. intros n. apply islice_small.
    - apply HU. apply reset_small with (P := slevel); auto using slevel_small.
    - apply HU. apply iadd_small with (P := slevel); auto using slevel_small.
    - apply HU. apply imul_small with (P := slevel); auto using slevel_small.
    - apply (HR (fun c => sl_new lt dflt (concat (lists c)))). intros s n E. eapply sl_new_small, E.
    - apply (HR (fun c => sl_new lt dflt (contents c ++ it))). intros s n E. eapply sl_new_small, E.
    - apply (HR (fun c => sl_new lt dflt (list_mul (contents c) n))). intros s m E. eapply sl_new_small, E.
    - apply (HR (fun c => sl_new lt dflt (contents c))). intros s n E. eapply sl_new_small, E.
    - apply HQ. unfold compare. keep.
    - apply HQ. unfold unsupported. keep.
  Qed.
End SmallList.

(** ** SortedKeyList *)
Section SmallKey.
  Context {V K : Type}.
  Variables vlt eq : V -> V -> res bool.
  Variables klt keq : K -> K -> res bool.
  Variable kf : V -> res K.
  Variable dflt : nat.
  Definition ksm (s : skl V K) : Prop := small (kc s).
  Definition klevel (s : skl V K) : Prop := level (length (keys s)) (kc s).

  Lemma klevel_small s : klevel s -> ksm s.
  Proof. intros H. apply H. Qed.
  Lemma klevel_intro (s : skl V K) :
    length (maxes (kc s)) = length (keys s) -> length (lists (kc s)) = length (keys s) -> ksm s -> klevel s.
  Proof. intros H1 H2. now split. Qed.
  Lemma klevel_nil (s : skl V K) :
    length (maxes (kc s)) = length (keys s) -> length (lists (kc s)) = length (keys s) -> index (kc s) = [] -> klevel s.
  Proof. intros H1 H2 H3. apply klevel_intro; auto. now left. Qed.

  Lemma skl_core_small A (m : M (core V K) A) : (forall n, keeps (level n) m) -> keeps klevel (oncore (skl_vt klt kf) m).
  Proof.
    intros H s Hs. unfold oncore, zoom. cbn [vt_get vt_put skl_vt]. specialize (H _ (kc s) Hs).
    destruct (m (kc s)) as [r t]. exact H.
  Qed.
  Lemma skl_clear_small : keeps klevel skl_clear.
  Proof. apply keeps_modify. intros c _. now apply klevel_nil. Qed.
  Lemma skl_expand_small pos : keeps klevel (skl_expand pos).
  Proof.
    apply keeps_modifyR. intros s s' H E. destruct (getn (keys s) pos) as [l|]; cbn [rbind] in E; [|discriminate].
    destruct (_ <? _).
    - crack. injection E as <-. destruct H as (H1 & H2 & _).
      apply klevel_nil; [| |reflexivity]; cbn; rewrite !insn_len; congruence.
    - destruct (index_inc (kc s) pos) as [c1|] eqn:E1; cbn [rbind] in E; [|discriminate]. injection E as <-.
      pose proof (small_inc _ _ _ (klevel_small _ H) E1) as Hs. destruct H as (H1 & H2 & _).
      unfold index_inc in E1.
      destruct (is_nil _); [injection E1 as <-; now apply klevel_intro|]. crack. injection E1 as <-.
      apply klevel_intro; [exact H1|exact H2|exact Hs].
  Qed.
  Lemma skl_lists_small p (g : core V K -> list V -> res (list V)) :
    keeps klevel (modifyR (fun s => let! ls := updn (lists (kc s)) p (g (kc s)) in Ok (on_kc (set_lists ls) s))).
  Proof.
    apply keeps_modifyR. intros c c' (H1 & H2 & H) E. crack. injection E as <-. apply klevel_intro; [cbn; congruence..|].
    destruct H as [H|H]; [now left|right]. cbn. lia.
  Qed.
  Lemma skl_keys_small p f :
    keeps klevel (modifyR (fun s => let! kss := updn (keys s) p f in Ok (set_keys kss s))).
  Proof.
    apply keeps_modifyR. intros c c' (H1 & H2 & H) E. crack. injection E as <-. apply klevel_intro; [cbn; congruence..|].
    exact H.
  Qed.
  Lemma skl_maxes_small p x :
    keeps klevel (modifyR (fun s => let! ms := setn (maxes (kc s)) p x in Ok (on_kc (set_maxes ms) s))).
  Proof.
    apply keeps_modifyR. intros c c' (H1 & H2 & H) E. crack. injection E as <-. apply klevel_intro; [cbn; congruence..|].
    exact H.
  Qed.
  Lemma skl_last_small p (l : skl V K -> res (list K)) :
    keeps klevel (modifyR (fun s => let! l := l s in let! m := getlast l in
                             let! ms := setn (maxes (kc s)) p m in Ok (on_kc (set_maxes ms) s))).
  Proof.
    apply keeps_modifyR. intros c c' (H1 & H2 & H) E. crack. injection E as <-. apply klevel_intro; [cbn; congruence..|].
    exact H.
  Qed.
  Lemma skl_lists_small' p f :
    keeps klevel (modifyR (fun s : skl V K => let! ls := updn (lists (kc s)) p f in Ok (on_kc (set_lists ls) s))).
  Proof. apply (skl_lists_small p (fun _ => f)). Qed.
  Hint Resolve skl_clear_small skl_expand_small skl_lists_small' skl_keys_small skl_maxes_small : keepdb.

  Lemma skl_add_small v : keeps klevel (skl_add klt kf v).
  Proof.
    assert (H1 : forall key, keeps klevel (modify (fun s =>
         mkskl (set_maxes (maxes (kc s) ++ [key]) (set_lists (lists (kc s) ++ [[v]]) (kc s)))
               (keys s ++ [[key]])))).
    { intros key. apply keeps_modify. intros s (H1 & H2 & H).
      apply klevel_intro; [cbn; rewrite !app_length; cbn; lia..|].
      destruct H as [H|H]; [now left|right]. cbn. rewrite !app_length. lia. }
    assert (H2 : keeps klevel (modify (on_kc (fun c => set_len (len c + 1) c)))).
    { apply keeps_modify. intros s H. exact H. }
    unfold skl_add. keep.
  Qed.
  Lemma skl_fill_small vs : leads_to klevel ksm (skl_fill kf vs).
  Proof.
    intros c H. apply klevel_small in H. revert H. revert c. apply keeps_modifyR.
    intros c c' H E. cbv zeta in E. crack. injection E as <-. now left.
  Qed.
  Lemma skl_update_small it : leads_to klevel ksm (skl_update klt kf it).
  Proof.
    pose proof skl_fill_small as Hf. pose proof skl_add_small as Ha.
    unfold skl_update. apply leads_bind; [exact klevel_small|keep|intros values].
    apply leads_bind; [exact klevel_small|keep|intros c].
    destruct (is_nil _); [apply Hf|]. destruct (_ <=? _); [|apply leads_keep; [exact klevel_small|keep]].
    intros s (H1 & H2 & H). unfold bind at 1, modify.
    set (s1 := on_kc _ s).
    assert (Hs1 : ksm s1). { destruct H as [H|H]; [now left|right]. cbn. rewrite app_length. lia. }
    unfold bind at 1, get. unfold bind at 1, liftr.
    destruct (py_sorted_key klt kf _) as [vs|]; [|exact Hs1]. unfold bind at 1, skl_clear, modify.
    apply Hf. now apply klevel_nil.
  Qed.
  Lemma skl_new_small it c : skl_new klt kf dflt it = Ok c -> ksm c.
  Proof.
    unfold skl_new. pose proof (skl_update_small it (skl_empty dflt) ltac:(now apply klevel_nil)) as H.
    destruct (skl_update klt kf it _) as [[[]|] s]; [|discriminate]. intros E. injection E as <-. exact H.
  Qed.
  Lemma skl_drop_small p (k : M (skl V K) unit) : keeps klevel k ->
    keeps klevel (bind (modifyR (fun s => let! ls := deln (lists (kc s)) p in Ok (on_kc (set_lists ls) s)))
               (fun _ => bind (modifyR (fun s => let! kss := deln (keys s) p in Ok (set_keys kss s)))
               (fun _ => bind (modifyR (fun s => let! ms := deln (maxes (kc s)) p in Ok (on_kc (set_maxes ms) s)))
               (fun _ => bind (modify (on_kc (set_index []))) (fun _ => k))))).
  Proof.
    intros Hk s H. unfold bind, modifyR at 1. destruct (deln (lists (kc s)) p) as [ls|] eqn:E1; cbn [rbind]; [|exact H].
    destruct H as (H1 & H2 & H). apply deln_len in E1. destruct E1 as [E1 E2].
    unfold modifyR at 1. cbn [keys on_kc]. destruct (deln_some (keys s) p ltac:(lia)) as [ks E3].
    rewrite E3. cbn [rbind].
    unfold modifyR. cbn [maxes set_lists set_keys kc on_kc]. destruct (deln_some (maxes (kc s)) p ltac:(lia)) as [ms E4].
    rewrite E4. cbn [rbind]. unfold modify. apply Hk. apply deln_len in E3, E4.
    apply klevel_nil; [| |reflexivity]; cbn; lia.
  Qed.
  Lemma skl_delete_small p i : keeps klevel (skl_delete p i).
  Proof.
    assert (Hl : keeps klevel (modifyR (fun s => let! n := subc (len (kc s)) 1 in Ok (on_kc (set_len n) s)))).
    { apply keeps_modifyR. intros c c' H E. crack. injection E as <-. exact H. }
    assert (Hd : forall p, keeps klevel (modifyR (fun s => let! c := index_dec (kc s) p in Ok (set_kc c s)))).
    { intros q. apply keeps_modifyR. intros s s' H E.
      destruct (index_dec (kc s) q) as [c1|] eqn:E1; cbn [rbind] in E; [|discriminate]. injection E as <-.
      pose proof (small_dec _ _ _ (klevel_small _ H) E1) as Hs.
      unfold index_dec in E1. destruct H as (H1 & H2 & _).
      destruct (is_nil _); [injection E1 as <-; now apply klevel_intro|]. crack. injection E1 as <-.
      apply klevel_intro; [exact H1|exact H2|exact Hs]. }
    assert (Hm : forall p (l : list K), keeps klevel (modifyR (fun s => let! m := getlast l in
                let! ms := setn (maxes (kc s)) p m in Ok (on_kc (set_maxes ms) s)))).
    { intros q l. apply (skl_last_small q (fun _ => Ok l)). }
    assert (Hx : forall p q, keeps klevel (modifyR (fun s => let! lp := getn (lists (kc s)) p in
                let! ls := updn (lists (kc s)) q (fun l => Ok (l ++ lp)) in Ok (on_kc (set_lists ls) s)))).
    { intros q r. apply keeps_modifyR. intros c c' (H1 & H2 & H) E. crack. injection E as <-.
      apply klevel_intro; [cbn; congruence..|]. destruct H as [H|H]; [now left|right]. cbn. lia. }
    assert (Hy : forall p q, keeps klevel (modifyR (fun s => let! kp := getn (keys s) p in
                let! kss := updn (keys s) q (fun l => Ok (l ++ kp)) in Ok (set_keys kss s)))).
    { intros q r. apply keeps_modifyR. intros c c' (H1 & H2 & H) E. crack. injection E as <-.
      apply klevel_intro; [cbn; congruence..|]. exact H. }
    unfold skl_delete.
    apply keeps_bind; [keep|intros _]. apply keeps_bind; [keep|intros _]. apply keeps_bind; [keep|intros _].
    apply keeps_bind; [keep|intros c].
    apply keeps_bind; [keep|intros lp]. cbv zeta. destruct (_ <? _); [keep|]. destruct (1 <? _).
    - apply keeps_bind; [auto with keepdb|intros _]. apply keeps_bind; [auto with keepdb|intros _].
      apply keeps_bind; [apply skl_last_small|intros _].
      apply skl_drop_small. apply skl_expand_small.
    - destruct (0 <? _); [keep|].
      intros s H. pose proof (skl_drop_small p (ret tt) (keeps_ret _ tt) s H) as G. unfold bind, modify, ret in *.
      destruct (modifyR _ s) as [[[]|] s1]; [|exact G]. destruct (modifyR _ s1) as [[[]|] s2]; [|exact G].
      destruct (modifyR _ s2) as [[[]|] s3]; exact G.
  Qed.

  Lemma skl_loc_small p i : keeps klevel (oncore (skl_vt klt kf) (loc p i)).
  Proof. apply skl_core_small. intros n. apply loc_small. Qed.
  Hint Resolve skl_loc_small : keepdb.
  Lemma skl_find_small v : keeps klevel (skl_find eq klt keq kf v).
  Proof. unfold skl_find. keep. Qed.
  Hint Resolve skl_find_small : keepdb.
  Lemma skl_irange_key_small a b x y r : keeps klevel (skl_irange_key klt a b x y r).
  Proof. unfold skl_irange_key. keep. Qed.
  Lemma skl_bkl_small k : keeps klevel (skl_bisect_key_left klt kf k).
  Proof. unfold skl_bisect_key_left. keep. Qed.
  Lemma skl_bkr_small k : keeps klevel (skl_bisect_key_right klt kf k).
  Proof. unfold skl_bisect_key_right. keep. Qed.
  Lemma index_loop_small fuel : forall key v a b p i n, keeps klevel (index_loop eq klt keq kf fuel key v a b p i n).
  Proof.
    induction fuel as [|f IH]; intros; cbn [index_loop]; [apply keeps_raise|]. keep.
  Qed.
  Hint Resolve skl_irange_key_small skl_bkl_small skl_bkr_small index_loop_small : keepdb.

  Lemma skl_step_small o s : klevel s -> ksm (snd (skl_step vlt eq klt keq kf dflt o s)).
  Proof.
    intros H.
    assert (HQ : forall A (inj : A -> out V) (m : M (skl V K) A), keeps klevel m -> ksm (snd (observe inj m s))).
    { intros A inj m Hm. apply (observe_leads klevel ksm); [apply leads_keep; [exact klevel_small|exact Hm]|exact H]. }
    assert (HN : forall A (inj : A -> out V) (m : M (core V K) A), (forall n, keeps (level n) m) ->
        ksm (snd (observe inj (oncore (skl_vt klt kf) m) s))).
    { intros A inj m Hm. apply HQ. now apply skl_core_small. }
    assert (HU : forall A (inj : A -> out V) (m : M (skl V K) A), leads_to klevel ksm m -> ksm (snd (observe inj m s))).
    { intros A inj m Hm. now apply (observe_leads klevel ksm). }
    assert (HR : forall m : skl V K -> res (skl V K), (forall s n, m s = Ok n -> ksm n) ->
              ksm (snd (rebind (V:=V) (bind get (fun s => liftr (m s))) s))).
    { intros m Hm. apply (rebind_leads klevel ksm); [| |exact H].
      - intros n s1 E. unfold bind, get, liftr in E. assert (m s = Ok n) as E' by congruence. eapply Hm, E'.
      - apply leads_keep; [exact klevel_small|]. keep. }
    pose proof (skl_core_small) as Hc. pose proof skl_delete_small as Hd. pose proof skl_update_small as Hu.
    pose proof skl_clear_small as Hcl.
    destruct o as [o| | |]; cbn [skl_step]; [destruct o; cbn [skl_lstep]|..].
    - apply HQ, skl_add_small.
    - apply HU, skl_update_small.
    - apply HQ, skl_clear_small.
    - apply HQ. unfold skl_discard. keep.
    - apply HQ. unfold skl_remove. keep.
    - apply HQ. unfold skl_contains. keep.
    - apply HN. intros n. apply getitem_small.
    - apply HN. intros n. apply slice_small.
    - apply HQ. apply del_small; auto.
    - apply HU. apply delslice_small with (P := klevel); auto using klevel_small.
    - apply HQ. apply pop_small; auto.
    - apply HN. intros n. unfold length_of. keep.
    - apply HN. intros n. unfold iter. keep.
    - apply HN. intros n. unfold reversed. keep.
    - apply HQ. unfold skl_bisect_left. keep.
    - apply HQ. unfold skl_bisect_right. keep.
    - apply HQ. unfold skl_count. keep.
    - apply HQ. unfold skl_index. keep.
    - apply HQ. unfold skl_irange. keep.
    - apply HN. intros n. apply islice_small.
    - apply HU. apply reset_small with (P := klevel); auto using klevel_small.
    - apply HU. apply iadd_small with (P := klevel); auto using klevel_small.
    - apply HU. apply imul_small with (P := klevel); auto using klevel_small.
    - apply (HR (fun c => skl_new klt kf dflt (concat (lists (kc c))))). intros x n E. eapply skl_new_small, E.
    - apply (HR (fun c => skl_new klt kf dflt (contents (kc c) ++ it))). intros x n E. eapply skl_new_small, E.
    - apply (HR (fun c => skl_new klt kf dflt (list_mul (contents (kc c)) n))). intros x m E. eapply skl_new_small, E.
    - apply (HR (fun c => skl_new klt kf dflt (contents (kc c)))). intros x n E. eapply skl_new_small, E.
    - apply HN. intros n. unfold compare. keep.
    - apply HQ. unfold unsupported. keep.
    - apply HQ. keep.
    - apply HQ. keep.
    - apply HQ. keep.
  Qed.
End SmallKey.

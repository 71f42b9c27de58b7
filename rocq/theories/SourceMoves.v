(** * Objects that hold a state, changed a list at a time (proofs) *)
From Coq Require Import String.
From Verif Require Import PyBase BaseFacts Model SourceSyntax SourceText SourceSem SourceRep SourceFacts SourceLoops SourceBuild.
Local Open Scope string_scope.
Local Open Scope nat_scope.
Local Open Scope list_scope.
Local Unset Implicit Arguments.

Section Rep.
  Context {V : Type}.
  Definition rep (L X I : nat) (h : nat -> list (val V)) (nx : nat) (ids : list nat)
      (ls : list (list V)) (ms : list V) (ix : list nat) : Prop :=
    h X = map VElt ms /\ h I = map vnat ix /\ h L = map VList ids /\ map h ids = map (map VElt) ls /\
    NoDup (L :: X :: I :: ids) /\ Forall (fun r => r < nx) (L :: X :: I :: ids).

  Lemma holds_rep L X I s (c : core V V) : holds L X I s c ->
    exists h nx ids, s = mkst h nx (slots (len c) (load c) L X I (offset c)) /\ rep L X I h nx ids (lists c) (maxes c) (index c).
  Proof. intros H. destruct (holds_inv _ _ _ _ _ H) as (h & nx & ids & -> & R). exists h, nx, ids. split; [reflexivity|exact R]. Qed.
  Lemma rep_holds L X I h nx ids ls ms ix ln ld off : rep L X I h nx ids ls ms ix ->
    holds L X I (mkst h nx (slots ln ld L X I off)) (mkcore ls ms ix off ln ld).
  Proof. intros (A & B & C & D & E & F). eapply holds_mk; try reflexivity; eassumption. Qed.

  Lemma map_on_out (h : nat -> list (val V)) r l ids : ~ In r ids -> map (on h r l) ids = map h ids.
  Proof. intros H. apply map_ext_in. intros q Hq. apply on_other. intros ->. contradiction. Qed.


  Lemma rep_dist L X I h nx ids ls ms ix : rep L X I h nx ids ls ms ix ->
    L <> X /\ L <> I /\ X <> I /\ ~ In L ids /\ ~ In X ids /\ ~ In I ids /\ NoDup ids /\ L < nx /\ X < nx /\ I < nx /\ Forall (fun r => r < nx) ids.
  Proof.
    intros (_ & _ & _ & _ & Hd & Hf). inversion Hd as [|? ? N1 D1]; subst. inversion D1 as [|? ? N2 D2]; subst.
    inversion D2 as [|? ? N3 D3]; subst. inversion Hf as [|? ? F1 G1]; subst. inversion G1 as [|? ? F2 G2]; subst.
    inversion G2 as [|? ? F3 G3]; subst. cbn [In] in *.
    repeat split; try assumption; intros E; subst; tauto.
  Qed.

  Lemma rep_max L X I h nx ids ls ms ix ms' : rep L X I h nx ids ls ms ix ->
    rep L X I (on h X (map VElt ms')) nx ids ls ms' ix.
  Proof.
    intros R. pose proof (rep_dist _ _ _ _ _ _ _ _ _ R) as (P1 & P2 & P3 & P4 & P5 & P6 & P7 & _).
    destruct R as (A & B & C & D & E & F). repeat split; try assumption.
    - apply on_same.
    - rewrite on_other by congruence. exact B.
    - rewrite on_other by congruence. exact C.
    - rewrite map_on_out by assumption. exact D.
  Qed.
  Lemma rep_ix L X I h nx ids ls ms ix ix' : rep L X I h nx ids ls ms ix ->
    rep L X I (on h I (map vnat ix')) nx ids ls ms ix'.
  Proof.
    intros R. pose proof (rep_dist _ _ _ _ _ _ _ _ _ R) as (P1 & P2 & P3 & P4 & P5 & P6 & P7 & _).
    destruct R as (A & B & C & D & E & F). repeat split; try assumption.
    - rewrite on_other by congruence. exact A.
    - apply on_same.
    - rewrite on_other by congruence. exact C.
    - rewrite map_on_out by assumption. exact D.
  Qed.
  (** Any change of the heap that keeps everything but the index. *)
  Lemma rep_ix_any L X I h h' nx nx' ids ls ms ix ix' : rep L X I h nx ids ls ms ix ->
    (forall q, q < nx -> q <> I -> h' q = h q) -> h' I = map vnat ix' -> nx <= nx' -> rep L X I h' nx' ids ls ms ix'.
  Proof.
    intros R Hk HI Hn. pose proof (rep_dist _ _ _ _ _ _ _ _ _ R) as (P1 & P2 & P3 & P4 & P5 & P6 & P7 & P8 & P9 & P10 & P11).
    destruct R as (A & B & C & D & E & F). repeat split; try assumption.
    - rewrite Hk by congruence. exact A.
    - rewrite Hk by congruence. exact C.
    - rewrite <- D. apply map_ext_in. intros q Hq. apply Hk; [rewrite Forall_forall in P11; auto|]. intros ->. contradiction.
    - eapply Forall_impl; [|exact F]. cbn. lia.
  Qed.
  (** A list nobody else has. *)
  Lemma rep_new L X I h nx ids ls ms ix l : rep L X I h nx ids ls ms ix -> rep L X I (on h nx l) (S nx) ids ls ms ix.
  Proof.
    intros R. pose proof (rep_dist _ _ _ _ _ _ _ _ _ R) as (P1 & P2 & P3 & P4 & P5 & P6 & P7 & P8 & P9 & P10 & P11).
    apply (rep_ix_any L X I h _ nx _ ids ls ms ix ix R).
    - intros q Hq _. apply on_other. lia.
    - rewrite on_other by lia. apply R.
    - lia.
  Qed.
  Lemma rep_over L X I h nx ids ls ms ix r l : rep L X I h nx ids ls ms ix -> ~ In r (L :: X :: I :: ids) ->
    rep L X I (on h r l) nx ids ls ms ix.
  Proof.
    intros (A & B & C & D & E & F) H. cbn [In] in H.
    repeat split; try assumption; try (rewrite on_other by tauto; assumption).
    rewrite map_on_out by tauto. exact D.
  Qed.

  Lemma map_on_sub : forall ids (h : nat -> list (val V)) ls p id l' ls', NoDup ids -> getn ids p = Ok id ->
    map h ids = map (map VElt) ls -> setn ls p l' = Ok ls' ->
    map (on h id (map VElt l')) ids = map (map VElt) ls'.
  Proof.
    unfold getn, setn. induction ids as [|q ids IH]; intros h ls p id l' ls' Hd Hp Hm Hs; [destruct p; discriminate|].
    destruct ls as [|l ls]; [discriminate|]. cbn [map] in Hm. injection Hm as Hq Hm.
    inversion Hd as [|? ? N D]; subst. destruct p; cbn in Hp, Hs.
    - injection Hp as <-. injection Hs as <-. cbn [map]. rewrite on_same. f_equal. rewrite map_on_out by exact N. exact Hm.
    - destruct (updn ls p (fun _ => Ok l')) as [t|] eqn:E; [|discriminate]. cbn in Hs. injection Hs as <-. cbn [map].
      rewrite (IH h ls p id l' t D Hp Hm E). f_equal. rewrite on_other; [exact Hq|]. intros ->. apply N.
      destruct (nth_error ids p) as [y|] eqn:Ey; [|discriminate]. injection Hp as ->. eapply nth_error_In, Ey.
  Qed.
  Lemma getn_in {A} (l : list A) i x : getn l i = Ok x -> In x l.
  Proof. unfold getn. destruct (nth_error l i) eqn:E; [|discriminate]. intros H. injection H as ->. eapply nth_error_In, E. Qed.

  Lemma rep_sub L X I h nx ids ls ms ix p id l' ls' : rep L X I h nx ids ls ms ix ->
    getn ids p = Ok id -> setn ls p l' = Ok ls' -> rep L X I (on h id (map VElt l')) nx ids ls' ms ix.
  Proof.
    intros R Hp Hs. pose proof (rep_dist _ _ _ _ _ _ _ _ _ R) as (P1 & P2 & P3 & P4 & P5 & P6 & P7 & _).
    pose proof (getn_in _ _ _ Hp) as Hin. destruct R as (A & B & C & D & E & F). repeat split; try assumption.
    - rewrite on_other by (intros ->; contradiction). exact A.
    - rewrite on_other by (intros ->; contradiction). exact B.
    - rewrite on_other by (intros ->; contradiction). exact C.
    - eapply map_on_sub; eassumption.
  Qed.
  (** Another list of sublists. *)
  Lemma rep_lists L X I h nx ids ls ms ix ids' ls' : rep L X I h nx ids ls ms ix ->
    map h ids' = map (map VElt) ls' -> NoDup ids' -> (forall q, In q ids' -> q < nx /\ q <> L /\ q <> X /\ q <> I) ->
    rep L X I (on h L (map VList ids')) nx ids' ls' ms ix.
  Proof.
    intros R Hm Hd Hin. pose proof (rep_dist _ _ _ _ _ _ _ _ _ R) as (P1 & P2 & P3 & P4 & P5 & P6 & P7 & P8 & P9 & P10 & P11).
    destruct R as (A & B & C & D & E & F).
    assert (N : forall q, In q [L; X; I] -> ~ In q ids').
    { intros q Hq Hi. pose proof (Hin q Hi) as (Q1 & Q2 & Q3 & Q4). cbn [In] in Hq. intuition congruence. }
    repeat split.
    - rewrite on_other by congruence. exact A.
    - rewrite on_other by congruence. exact B.
    - apply on_same.
    - rewrite map_on_out; [exact Hm|]. apply N. left. reflexivity.
    - constructor; [intros [E1|[E1|E1]]; try congruence; revert E1; apply N; left; reflexivity|].
      constructor; [intros [E1|E1]; try congruence; revert E1; apply N; right; left; reflexivity|].
      constructor; [apply N; right; right; left; reflexivity|]. exact Hd.
    - repeat constructor; try assumption. apply Forall_forall. intros q Hq. apply Hin, Hq.
  Qed.
  Lemma insn_map {A B} (f : A -> B) l i x : map f (insn l i x) = insn (map f l) i (f x).
  Proof. unfold insn. rewrite map_app. cbn [map]. rewrite firstn_map, skipn_map. reflexivity. Qed.
  Lemma deln_map {A B} (f : A -> B) l i : deln (map f l) i = rmap (map f) (deln l i).
  Proof.
    unfold deln. rewrite map_length. destruct (i <? length l); [|reflexivity]. cbn [rmap].
    rewrite map_app, firstn_map, skipn_map. reflexivity.
  Qed.
  Lemma NoDup_insn (l : list nat) i x : NoDup l -> ~ In x l -> NoDup (insn l i x).
  Proof.
    intros H N. unfold insn. apply (Permutation.Permutation_NoDup (l := x :: firstn i l ++ skipn i l)).
    - apply Permutation.Permutation_middle.
    - constructor; rewrite firstn_skipn; assumption.
  Qed.
  Lemma in_insn {A} (l : list A) i x q : In q (insn l i x) -> q = x \/ In q l.
  Proof.
    unfold insn. rewrite in_app_iff. cbn [In]. intros [H|[H|H]].
    - right. rewrite <- (firstn_skipn i l). apply in_or_app. left. exact H.
    - left. congruence.
    - right. rewrite <- (firstn_skipn i l). apply in_or_app. right. exact H.
  Qed.
  Lemma rep_ins L X I h nx ids ls ms ix p l r : rep L X I h nx ids ls ms ix -> h r = map VElt l -> r < nx ->
    ~ In r (L :: X :: I :: ids) ->
    rep L X I (on h L (map VList (insn ids p r))) nx (insn ids p r) (insn ls p l) ms ix.
  Proof.
    intros R Hr Hn Hi. pose proof (rep_dist _ _ _ _ _ _ _ _ _ R) as (P1 & P2 & P3 & P4 & P5 & P6 & P7 & P8 & P9 & P10 & P11).
    pose proof R as (A & B & C & D & E & F). cbn [In] in Hi.
    apply (rep_lists L X I h nx ids ls ms ix _ _ R).
    - rewrite !insn_map, D, Hr. reflexivity.
    - apply NoDup_insn; tauto.
    - intros q Hq. destruct (in_insn _ _ _ _ Hq) as [->|Hq'].
      + repeat split; try assumption; intros ->; tauto.
      + rewrite Forall_forall in P11. repeat split; [auto|..]; intros ->; contradiction.
  Qed.
  Lemma in_deln {A} (l : list A) i q l' : deln l i = Ok l' -> In q l' -> In q l.
  Proof.
    unfold deln. destruct (i <? length l); [|discriminate]. intros H. injection H as <-. rewrite in_app_iff. intros [H|H].
    - rewrite <- (firstn_skipn i l). apply in_or_app. left. exact H.
    - rewrite <- (firstn_skipn (S i) l). apply in_or_app. right. exact H.
  Qed.
  Lemma NoDup_deln (l : list nat) i l' : deln l i = Ok l' -> NoDup l -> NoDup l'.
  Proof.
    unfold deln. destruct (i <? length l); [|discriminate]. intros H Hd. injection H as <-.
    revert i. induction l as [|a l IH]; intros i; [rewrite firstn_nil; cbn; constructor|].
    inversion Hd as [|? ? N D]; subst. destruct i; [exact D|]. cbn [firstn skipn app]. constructor; [|exact (IH D i)].
    intros Hi. apply N. rewrite in_app_iff in Hi. destruct Hi as [Hi|Hi].
    - rewrite <- (firstn_skipn i l). apply in_or_app. left. exact Hi.
    - rewrite <- (firstn_skipn (S i) l). apply in_or_app. right. exact Hi.
  Qed.
  Lemma rep_del L X I h nx ids ls ms ix p ls' : rep L X I h nx ids ls ms ix -> deln ls p = Ok ls' ->
    exists ids', deln ids p = Ok ids' /\ rep L X I (on h L (map VList ids')) nx ids' ls' ms ix.
  Proof.
    intros R Hl. pose proof (rep_dist _ _ _ _ _ _ _ _ _ R) as (P1 & P2 & P3 & P4 & P5 & P6 & P7 & P8 & P9 & P10 & P11).
    pose proof R as (A & B & C & D & E & F). pose proof (f_equal (fun l => deln l p) D) as Hd.
    cbv beta in Hd. rewrite !deln_map, Hl in Hd. cbn [rmap] in Hd.
    destruct (deln ids p) as [ids'|] eqn:Ei; [|discriminate]. cbn [rmap] in Hd. injection Hd as Hd.
    exists ids'. split; [reflexivity|]. apply (rep_lists L X I h nx ids ls ms ix _ _ R).
    - exact Hd.
    - eapply NoDup_deln; eassumption.
    - intros q Hq. pose proof (in_deln _ _ _ _ Ei Hq) as Hq'.
      rewrite Forall_forall in P11. repeat split; [auto|..]; intros ->; contradiction.
  Qed.
  Lemma rep_clear L X I h nx ids ls ms ix : rep L X I h nx ids ls ms ix ->
    rep L X I (on (on (on h L []) X []) I []) nx [] [] [] [].
  Proof.
    intros R. apply (rep_ix L X I _ nx [] [] [] ix []). apply (rep_max L X I _ nx [] [] ms ix []).
    apply (rep_lists L X I h nx ids ls ms ix [] [] R); [reflexivity|constructor|intros q []].
  Qed.
End Rep.

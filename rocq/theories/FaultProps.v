(** * SortedList under comparisons that raise or are not an order, as lemmas *)
From Verif Require Import PyBase Model Spec History Reach BaseFacts SpecFacts SliceFacts IndexFacts Shape CoreFacts VtFacts
  KeyFacts KeyLook ListSim ListFacts HistFacts CheckFacts FaultFacts FaultSpec FaultHist ListProps.
From Coq Require Import Sorting.Permutation Sorting.Sorted.
Local Unset Implicit Arguments.

Lemma loose_doc {V} (eq : V -> V -> res bool) (raised : exn -> Prop) o l e l' :
  loose eq raised o l (RExn e) l' -> raised e \/ documented o e \/ (exists v, o = LCount v /\ e = Underflow).
Proof.
  assert (OR : forall P Q, or_raised (V:=V) raised (RExn e) P Q -> raised e).
  { intros P Q [[H _]|(e' & [= <-] & H & _)]; [discriminate|exact H]. }
  assert (EX : forall o, exact_ref o (RExn e) l l' -> documented o e).
  { intros o0 H. unfold exact_ref in H. apply (sp_documented (@none V) (@none V) (@none V) o0 l e).
    rewrite <- H. reflexivity. }
  destruct o; cbn [loose]; intros H; eauto;
    try (destruct H as [[_ H] _]; destruct (H e eq_refl); auto; fail); try (right; left; apply EX; exact H).
  - destruct H as [H|[[= ->] _]]; eauto. right. left. reflexivity.
  - unfold sp_del_slice in H. destruct (slice_indices_cases sl (length l)) as [[E1 E2]|(E2 & a & b & s & E1)];
      rewrite E1 in H; cbn [rbind] in H; eauto. destruct H as [[= ->] _]. right. left. split; auto.
  - destruct H as [[_ H] _]. destruct (H e eq_refl) as [| ->]; eauto.
Qed.

Lemma wild_shape V dflt (c : core V V) : 1 <= dflt -> wild_reach dflt c -> LShape c.
Proof.
  intros Hd (ws & Hok & Hf & ->). 
  assert (H0 : LShape (sl_init (V:=V) dflt)) by (apply lshape_empty; exact Hd).
  revert Hf Hok H0. generalize (sl_init (V:=V) dflt). unfold wild_run.
  induction ws as [|w ws IH]; intros c Hf Hok H0; [exact H0|]. cbn [run map] in *.
  inversion Hok as [|? ? Hw Hok']; subst.
  destruct (sl_step_gen (w_lt w) (w_eq w) dflt Hd (w_op w) c H0 Hw) as (r & c1 & E & _ & Hn).
  unfold wild_step in Hf at 1. unfold wild_step at 1. rewrite E in *.
  specialize (IH c1). destruct (run (wild_step dflt) ws c1) as [rs c2]. cbn [fst snd] in *.
  inversion Hf; subst. apply IH; auto.
Qed.

Lemma total_wild V (ltb eqb : V -> V -> bool) dflt c : TotalOrder ltb eqb -> 1 <= dflt ->
  sl_reach ltb eqb dflt c -> wild_reach dflt c.
Proof.
  intros HT Hd (ops & Hok & ->).
  assert (EQ : forall ops c, wild_run dflt (map (mkwild (total2 ltb) (total2 eqb)) ops) c =
      sl_run (total2 ltb) (total2 eqb) dflt ops c).
  { clear. intros ops. unfold wild_run, sl_run. induction ops as [|o ops IH]; intros c; [reflexivity|].
    cbn [map run]. unfold wild_step at 1. cbn [w_lt w_eq w_op]. destruct (sl_step _ _ _ _ _) as [r c1].
    rewrite IH. reflexivity. }
  exists (map (mkwild (total2 ltb) (total2 eqb)) ops). rewrite EQ. split; [|split; [|reflexivity]].
  - apply Forall_map. exact Hok.
  - rewrite map_map. cbn [w_op]. rewrite map_id.
    destruct (c02_refines V ltb eqb dflt ops HT Hd Hok) as (c' & E & _). rewrite E. cbn [fst].
    clear. generalize (@nil V). unfold sp_run. induction ops as [|o ops IH]; intros l; cbn [run]; [constructor|].
    destruct (sp_step ltb eqb ltb o l) as [r l1] eqn:E. specialize (IH l1).
    destruct (run (sp_step ltb eqb ltb) ops l1) as [rs l2]. cbn [fst] in *. constructor; [|exact IH].
    destruct o; cbn; auto; cbn in E; injection E as <- _; exact I.
Qed.

(** ** C55 *)
Lemma c55_consistent : forall V dflt (c : core V V), 1 <= dflt -> wild_reach dflt c ->
  exists l, shows c l /\ length_of c = (Ok (length l), c) /\ reversed c = (Ok (rev l), c) /\
    forall lt eq o, lop_ok o ->
      exists r c' l', sl_step lt eq dflt o c = (r, c') /\ shows c' l' /\
        loose eq (cmp_raises lt eq) o l r l'.
Proof.
  intros V dflt c Hd HR. pose proof (wild_shape V dflt c Hd HR) as HS. exists (contents c).
  pose proof (lshape_core c HS) as HC.
  split; [reflexivity|]. split; [unfold length_of, bind, get, ret; rewrite (co_len _ HC); reflexivity|].
  split; [apply reversed_ok|]. intros lt eq o Ho.
  destruct (sl_step_gen lt eq dflt Hd o c HS Ho) as (r & c' & E & HL & _).
  exists r, c', (contents c'). split; [exact E|]. split; [reflexivity|]. exact HL.
Qed.

(** ** C23 *)
Lemma c23_no_effect : forall V (ltb eqb : V -> V -> bool) dflt c l,
  TotalOrder ltb eqb -> 1 <= dflt -> sl_reach ltb eqb dflt c -> shows c l ->
  forall lt eq o e c', atomic o -> sl_step lt eq dflt o c = (RExn e, c') ->
    shows c' l /\ length_of c' = (Ok (length l), c') /\
    (cmp_raises lt eq e \/ documented o e \/ (exists v, o = LCount v /\ e = Underflow)) /\
    forall ops, Forall lop_ok ops -> exists c2,
      sl_run (total2 ltb) (total2 eqb) dflt ops c' = (fst (sp_run ltb eqb ltb ops l), c2) /\
      shows c2 (snd (sp_run ltb eqb ltb ops l)).
Proof.
  intros V ltb eqb dflt c l HT Hd HR Hl lt eq o e c' Ha E.
  assert (Ho : lop_ok o) by (destruct o; simpl in *; tauto).
  destruct (reach_inv ltb eqb dflt HT Hd c HR) as [HS Hso].
  destruct (sl_step_gen lt eq dflt Hd o c HS Ho) as (r & c1 & E1 & HL & Hn).
  rewrite E in E1. injection E1 as <- <-.
  assert (HS' : LShape c') by (apply Hn; destruct o; simpl in *; tauto).
  apply shows_iff in Hl. pose proof (loose_atomic eq _ _ _ _ _ e HL Ha eq_refl) as Ec. rewrite Hl in Ec.
  split; [apply shows_iff; exact Ec|].
  split; [unfold length_of, bind, get, ret; rewrite (co_len _ (lshape_core _ HS')), Ec; reflexivity|].
  split; [eapply loose_doc; exact HL|].
  intros ops Hok. assert (HI' : LInv ltb c') by (split; [exact HS'|rewrite Ec, <- Hl; exact Hso]).
  destruct (sl_run_ok ltb eqb HT dflt Hd ops c' HI' Hok) as (c2 & E2 & _ & Ec2 & _).
  exists c2. rewrite Ec in *. split; [exact E2|]. apply shows_iff. exact Ec2.
Qed.

(** An interrupted rebuild ([del sl[a:b:c]], [_reset], [*=]) loses values but
    leaves a list that works. *)
Lemma c23_rebuild : forall V (ltb eqb : V -> V -> bool) dflt c l,
  TotalOrder ltb eqb -> 1 <= dflt -> sl_reach ltb eqb dflt c -> shows c l ->
  forall lt eq o e c', lop_ok o -> update_fine o (@RExn V e) -> sl_step lt eq dflt o c = (RExn e, c') ->
    (shows c' l \/ shows c' []) /\
    forall ops, Forall lop_ok ops -> exists l' c2, shows c' l' /\
      sl_run (total2 ltb) (total2 eqb) dflt ops c' = (fst (sp_run ltb eqb ltb ops l'), c2) /\
      shows c2 (snd (sp_run ltb eqb ltb ops l')).
Proof.
  intros V ltb eqb dflt c l HT Hd HR Hl lt eq o e c' Ho Hu E.
  destruct (reach_inv ltb eqb dflt HT Hd c HR) as [HS Hso].
  destruct (sl_step_gen lt eq dflt Hd o c HS Ho) as (r & c1 & E1 & HL & Hn).
  rewrite E in E1. injection E1 as <- <-. specialize (Hn Hu). apply shows_iff in Hl. rewrite Hl in *.
  assert (Hc : contents c' = l \/ contents c' = []).
  { assert (D : atomic o \/ ~ atomic o) by (destruct o; cbn; auto).
    destruct D as [D|D]; [left; exact (loose_atomic eq _ _ _ _ _ e HL D eq_refl)|].
    destruct o; cbn [loose] in HL; cbn in Hu, D; try tauto.
    all: try (destruct HL as [[HL _]|(e' & _ & _ & HL)]; [discriminate|auto]).
    unfold sp_del_slice in HL. destruct (slice_indices sl (length l)) as [[[a b] s]|e1]; cbn [rbind] in HL.
    - destruct HL as [[HL _]|(e' & _ & _ & HL)]; [discriminate|auto].
    - left. apply HL. }
  split; [destruct Hc; [left|right]; apply shows_iff; assumption|].
  intros ops Hok. exists (contents c').
  assert (HI' : LInv ltb c') by (split; [exact Hn|destruct Hc as [->| ->]; [exact Hso|constructor]]).
  destruct (sl_run_ok ltb eqb HT dflt Hd ops c' HI' Hok) as (c2 & E2 & _ & Ec2 & _).
  exists c2. split; [reflexivity|]. split; [exact E2|]. apply shows_iff. exact Ec2.
Qed.

(** ** C24 *)
(** Two kinds of values that cannot be compared with one another, like [1] and
    ['a']. *)
Definition mixed_lt (x y : bool * nat) : res bool :=
  if Bool.eqb (fst x) (fst y) then Ok (snd x <? snd y) else Err TypeError.
Definition mixed_eq (x y : bool * nat) : res bool :=
  Ok (Bool.eqb (fst x) (fst y) && (snd x =? snd y)).

Lemma c24_refuted : exists (lt eq : bool * nat -> bool * nat -> res bool) dflt c c' it e l n,
  1 <= dflt /\ wild_reach dflt c /\ sl_step lt eq dflt (LUpdate it) c = (RExn e, c') /\
  shows c' l /\ length_of c' = (Ok n, c') /\ n <> length l.
Proof.
  exists mixed_lt, mixed_eq, 1000.
  set (w := mkwild mixed_lt mixed_eq (LUpdate [(false, 1); (false, 2); (false, 3)])).
  exists (snd (wild_run 1000 [w] (sl_init 1000))).
  exists (snd (sl_step mixed_lt mixed_eq 1000 (LUpdate [(true, 1); (true, 2); (true, 3)])
             (snd (wild_run 1000 [w] (sl_init 1000))))).
  exists [(true, 1); (true, 2); (true, 3)], TypeError.
  exists [(false, 1); (false, 2); (false, 3); (true, 1); (true, 2); (true, 3)], 3.
  split; [lia|]. split.
  { exists [w]. split; [repeat constructor|]. split; [|reflexivity]. vm_compute. repeat constructor. }
  split; [vm_compute; reflexivity|]. split; [vm_compute; reflexivity|]. split; [vm_compute; reflexivity|]. cbn. lia.
Qed.

(** What an interrupted [update] does guarantee. *)
Lemma c24_update : forall V dflt (c : core V V) l, 1 <= dflt -> wild_reach dflt c -> shows c l ->
  forall lt eq it e c', sl_step lt eq dflt (LUpdate it) c = (RExn e, c') ->
    cmp_raises lt eq e /\
    ((l = [] \/ length it * 4 < length l) ->
       exists l' vs ws, shows c' l' /\ Permutation l' (l ++ vs) /\ Permutation (vs ++ ws) it /\
         length_of c' = (Ok (length l'), c') /\ reversed c' = (Ok (rev l'), c')) /\
    (exists l' vs ws, shows c' l' /\ Permutation l' (l ++ vs) /\ Permutation (vs ++ ws) it).
Proof.
  intros V dflt c l Hd HR Hl lt eq it e c' E. apply shows_iff in Hl.
  pose proof (wild_shape V dflt c Hd HR) as HS.
  destruct (sl_update_gen lt it c HS) as (r & c1 & E1 & _ & H).
  cbn [sl_step] in E. unfold observe in E. rewrite E1 in E.
  pose proof (co_len _ (lshape_core _ HS)) as Hlen. rewrite Hl in *.
  assert (OKC : forall c : core V V, LShape c -> length_of c = (Ok (length (contents c)), c) /\ reversed c = (Ok (rev (contents c)), c)).
  { intros c0 H0. split; [|apply reversed_ok].
    unfold length_of, bind, get, ret. rewrite (co_len _ (lshape_core _ H0)). reflexivity. }
  destruct H as [(-> & _)|[(e' & -> & Hr & ->)|[(e' & values & -> & Hr & Hp & Hne & Hb & ->)|(e' & vs & ws & -> & Hr & H1 & Hb & H2 & H3)]]];
    [discriminate| | |]; injection E as <- <-.
  - split; [left; exact Hr|]. assert (P : Permutation (contents c) (l ++ []) /\ Permutation ([] ++ it) it).
    { rewrite Hl, app_nil_r. auto. }
    destruct P as [P1 P2]. destruct (OKC c HS) as [O1 O2].
    split; [intros _|]; exists (contents c), [], it; repeat split; auto.
  - split; [left; exact Hr|]. split; [intros [Hn|Hn]; [congruence|lia]|].
    exists (l ++ values), values, []. rewrite !app_nil_r. repeat split; auto.
    apply shows_iff. unfold contents in *. cbn. rewrite concat_app, Hl. cbn. rewrite app_nil_r. reflexivity.
  - split; [left; exact Hr|]. destruct (OKC c1 H1) as [O1 O2].
    split; [intros _|]; exists (contents c1), vs, ws; repeat split; auto.
Qed.

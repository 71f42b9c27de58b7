(** * Lemmas: laws between the operations of SortedList and SortedKeyList *)
From Coq Require Import Lia.
From Verif Require Import PyBase Model Spec History BaseFacts SpecFacts SliceFacts Reach ListSim ListFacts HistFacts ListProps KeyProps LawsSpec Concrete ConcreteCompare.
Local Unset Implicit Arguments.

(** ** On plain lists *)
Lemma filter_le {A} (f : A -> bool) l : length (filter f l) <= length l.
Proof. induction l as [|x l IH]; cbn; [lia|]. destruct (f x); cbn; lia. Qed.
Definition cl (n d : nat) (o : option Z) : nat := Z.to_nat (slice_adjust 0 (Z.of_nat n) (Z.of_nat n) (Z.of_nat d) o).
Lemma cl_le n d o : d <= n -> cl n d o <= n.
Proof.
  intros H. unfold cl, slice_adjust. destruct o as [v|]; [|lia]. destruct (Z.ltb_spec v 0); cbv zeta.
  - destruct (Z.ltb_spec (v + Z.of_nat n) 0); lia.
  - destruct (Z.ltb_spec (Z.of_nat n) v); lia.
Qed.
Lemma cl_some n d i : i <= n -> cl n d (Some (Z.of_nat i)) = i.
Proof.
  intros H. unfold cl, slice_adjust. destruct (Z.ltb_spec (Z.of_nat i) 0); [lia|]. destruct (Z.ltb_spec (Z.of_nat n) (Z.of_nat i)); lia.
Qed.
Lemma cl_dflt n d d' i : cl n d (Some i) = cl n d' (Some i).
Proof. reflexivity. Qed.
Lemma cl_mono n d d' i j : (0 <= i <= j)%Z -> cl n d (Some i) <= cl n d' (Some j).
Proof.
  intros H. unfold cl, slice_adjust. destruct (Z.ltb_spec i 0); [lia|]. destruct (Z.ltb_spec j 0); [lia|].
  destruct (Z.ltb_spec (Z.of_nat n) i), (Z.ltb_spec (Z.of_nat n) j); lia.
Qed.
Lemma indices_cl i j n : slice_indices (mkslice i j None) n = Ok (Z.of_nat (cl n 0 i), Z.of_nat (cl n n j), 1%Z).
Proof.
  destruct (slice_indices_None i j n) as (a & b & E). rewrite E. destruct (slice_indices_Ok _ _ _ _ _ E) as (_ & Q & _).
  destruct (Q ltac:(lia)) as [Q1 Q2]. unfold slice_indices in E. cbn [s_step s_start s_stop] in E.
  change (1 =? 0)%Z with false in E. change (1 <? 0)%Z with false in E. cbv iota zeta in E. injection E as E1 E2.
  unfold cl. change (Z.of_nat 0) with 0%Z. rewrite E1, E2, !Z2Nat.id by lia. reflexivity.
Qed.
Lemma slice_cl {A} i j (l : list A) : sp_slice (mkslice i j None) l = Ok (slicen l (cl (length l) 0 i) (cl (length l) (length l) j)).
Proof.
  unfold sp_slice. rewrite indices_cl. cbn [rbind]. rewrite mapR_getz_rangez; [rewrite !Nat2Z.id; reflexivity|lia|].
  pose proof (cl_le (length l) (length l) j (le_n _)). lia.
Qed.
Lemma slicen_to {A} (l : list A) b : slicen l 0 b = firstn b l.
Proof. unfold slicen. rewrite Nat.sub_0_r. reflexivity. Qed.
Lemma slicen_from {A} (l : list A) a : slicen l a (length l) = skipn a l.
Proof. unfold slicen. apply firstn_all2. rewrite skipn_length. lia. Qed.

Lemma sp_del_mid {A} (a : list A) x b : sp_del (Z.of_nat (length a)) (a ++ x :: b) = Ok (a ++ b).
Proof.
  unfold sp_del. destruct (Z.ltb_spec (Z.of_nat (length a)) 0); [lia|]. cbv zeta iota. destruct (Z.ltb_spec (Z.of_nat (length a)) 0); [lia|].
  rewrite Nat2Z.id. apply deln_app.
Qed.
Lemma pop_both {A} (l : list A) i : (exists v l', getz l i = Ok v /\ sp_del i l = Ok l') \/ (getz l i = Err IndexError /\ sp_del i l = Err IndexError).
Proof.
  unfold getz, sp_del. cbv zeta. set (j := (if i <? 0 then i + Z.of_nat (length l) else i)%Z). destruct (j <? 0)%Z; [right; auto|].
  destruct (nth_error l (Z.to_nat j)) as [v|] eqn:E.
  - left. apply nth_error_split in E as (a & b & El & Ej). exists v, (a ++ b). rewrite El, <- Ej. split; [apply getn_app|apply deln_app].
  - right. unfold getn. rewrite E. split; [reflexivity|]. apply nth_error_None in E. unfold deln. destruct (Nat.ltb_spec (Z.to_nat j) (length l)); [lia|reflexivity].
Qed.

Section Plain.
  Context {V : Type}.
  Variables ltb eqb : V -> V -> bool.
  Hypothesis HO : SWO ltb.
  Hypothesis HE : EqCompat ltb eqb.

  (** A filter for an upper and a lower part is a slice. *)
  Lemma between (lo hi : V -> bool) l : sorted ltb l -> (forall x y, ltb y x = false -> lo x = true -> lo y = true) ->
    (forall x y, ltb y x = false -> hi y = true -> hi x = true) ->
    filter (fun e => lo e && hi e) l = slicen l (length (filter (fun e => negb (lo e)) l)) (length (filter hi l)).
  Proof.
    intros HS Hlo Hhi. set (l1 := filter (fun e => negb (lo e)) l). set (l2 := filter lo l).
    assert (E : l = l1 ++ l2) by (symmetry; apply mono_filter_app, (sorted_mono ltb lo l HS Hlo)).
    assert (F : filter (fun e => lo e && hi e) l = filter hi l2).
    { unfold l2. clear. induction l as [|x l IH]; cbn; [reflexivity|]. destruct (lo x); cbn; [destruct (hi x)|]; rewrite IH; reflexivity. }
    rewrite F. unfold slicen. rewrite E at 2. rewrite skipn_app_len. rewrite E at 1. rewrite filter_app, app_length.
    rewrite E in HS. apply (sorted_app_inv ltb) in HS as (S1 & S2 & S3).
    assert (M : filter hi l2 ++ filter (fun x => negb (hi x)) l2 = l2).
    { pose proof (mono_filter_app (fun x => negb (hi x)) l2) as Q. rewrite <- Q at 3; [f_equal; apply filter_ext; intros x; rewrite negb_involutive; reflexivity|].
      apply (sorted_mono ltb _ l2 S2). intros x y Hxy Hx. apply negb_true_iff in Hx. apply negb_true_iff. destruct (hi y) eqn:Ey; [|reflexivity].
      rewrite (Hhi x y Hxy Ey) in Hx. discriminate. }
    assert (N : length (filter hi l1) + length (filter hi l2) - length l1 = length (filter hi l2)).
    { destruct (filter hi l2) as [|y t] eqn:E2.
      - cbn [length]. pose proof (filter_le hi l1). lia.
      - assert (Hy : In y (filter hi l2)) by (rewrite E2; left; reflexivity). apply filter_In in Hy as [Hy1 Hy2].
        rewrite (filter_all hi l1) by (intros x Hx; apply (Hhi x y); [apply S3; assumption|exact Hy2]). lia. }
    rewrite N. rewrite <- firstn_app_len with (b := filter (fun x => negb (hi x)) l2) at 1. rewrite M. reflexivity.
  Qed.
  Definition place_lo (mn : option V) (a : bool) l : nat :=
    match mn with None => 0 | Some m => if a then sp_bisect_left ltb m l else sp_bisect_right ltb m l end.
  Definition place_hi (mx : option V) (b : bool) l : nat :=
    match mx with None => length l | Some m => if b then sp_bisect_right ltb m l else sp_bisect_left ltb m l end.
  Lemma irange_slicen mn mx a b l : sorted ltb l -> sp_irange ltb mn mx a b false l = slicen l (place_lo mn a l) (place_hi mx b l).
  Proof.
    intros HS. unfold sp_irange. cbv zeta.
    rewrite (between (fun e => match mn with None => true | Some m => if a then negb (ltb e m) else ltb m e end)
                     (fun e => match mx with None => true | Some m => if b then negb (ltb m e) else ltb e m end) l HS).
    - f_equal.
      + destruct mn as [m|]; cbn [place_lo]; [destruct a|].
        * unfold sp_bisect_left. f_equal. apply filter_ext. intros e. apply negb_involutive.
        * reflexivity.
        * rewrite filter_none; [reflexivity|]. reflexivity.
      + destruct mx as [m|]; cbn [place_hi]; [destruct b; reflexivity|]. rewrite filter_all; [reflexivity|]. reflexivity.
    - intros x y Hxy Hx. destruct mn as [m|]; [|reflexivity]. destruct a.
      + apply negb_true_iff in Hx. apply negb_true_iff. eapply swo_le_trans; eauto.
      + eapply swo_lt_le; eauto.
    - intros x y Hxy Hy. destruct mx as [m|]; [|reflexivity]. destruct b.
      + apply negb_true_iff in Hy. apply negb_true_iff. eapply swo_le_trans; eauto.
      + eapply swo_le_lt; eauto.
  Qed.
  Lemma left_le v l : sp_bisect_left ltb v l <= length l.
  Proof. apply filter_le. Qed.
  Lemma right_le v l : sp_bisect_right ltb v l <= length l.
  Proof. apply filter_le. Qed.
  Lemma index_some v a b l k : sp_index eqb v a b l = Ok k -> exists x, nth_error l k = Some x /\ eqb x v = true.
  Proof.
    unfold sp_index. cbv zeta. destruct (find _ _) as [i|] eqn:E; [|discriminate]. intros [= <-]. apply find_some in E as [_ E].
    apply andb_true_iff in E as [_ E]. destruct (nth_error l i) as [x|]; [|discriminate]. eauto.
  Qed.
  Lemma index_any v l : sp_contains eqb v l = true -> exists k, sp_index eqb v None None l = Ok k.
  Proof.
    intros H. unfold sp_contains in H. apply existsb_exists in H as (x & Hx & E). apply In_nth_error in Hx as [i Hi]. unfold sp_index. cbv zeta.
    destruct (find _ _) as [k|] eqn:F; [eauto|]. exfalso. assert (L : i < length l) by (apply nth_error_Some; congruence).
    assert (Q : In i (seq 0 (length l))) by (apply in_seq; lia). apply (find_none _ _ F) in Q. rewrite Hi, E in Q.
    rewrite andb_true_r in Q. apply andb_false_iff in Q as [Q|Q]; [apply Z.leb_gt in Q|apply Z.ltb_ge in Q]; cbn in Q; lia.
  Qed.
  Lemma index_no v a b l : sp_contains eqb v l = false -> sp_index eqb v a b l = Err ValueError.
  Proof.
    intros H. unfold sp_index. cbv zeta. destruct (find _ _) as [i|] eqn:E; [|reflexivity]. exfalso. apply find_some in E as [_ E].
    apply andb_true_iff in E as [_ E]. destruct (nth_error l i) as [x|] eqn:En; [|discriminate]. apply nth_error_In in En.
    assert (Q : sp_contains eqb v l = true) by (apply existsb_exists; eauto). congruence.
  Qed.
  Lemma index_place v l k x : sorted ltb l -> nth_error l k = Some x -> eqb x v = true -> sp_bisect_left ltb v l <= k < sp_bisect_right ltb v l.
  Proof.
    intros HS Hk Hx. destruct (HE x v Hx) as [E1 E2]. apply nth_error_split in Hk as (l1 & l2 & -> & <-).
    apply (sorted_app_inv ltb) in HS as (_ & S2 & S3). apply (sorted_cons_inv ltb) in S2 as [_ S2].
    unfold sp_bisect_left, sp_bisect_right. rewrite !filter_app, !app_length. cbn [filter]. rewrite E1, E2. cbn [negb length].
    rewrite (filter_none (fun e => ltb e v) l2) by (intros y Hy; eapply (swo_le_trans ltb HO); [exact E1|apply S2; exact Hy]).
    rewrite (filter_all (fun e => negb (ltb v e)) l1).
    2:{ intros y Hy. apply negb_true_iff. eapply (swo_le_trans ltb HO); [|exact E2]. apply S3; [exact Hy|left; reflexivity]. }
    cbn [length]. pose proof (filter_le (fun e => ltb e v) l1). lia.
  Qed.
  Lemma discard_split v l : sp_contains eqb v l = true -> exists p x q, l = p ++ x :: q /\ eqb x v = true /\ sp_discard eqb v l = p ++ q.
  Proof.
    induction l as [|e l IH]; cbn [sp_contains existsb sp_discard]; [discriminate|]. destruct (eqb e v) eqn:E; cbn [orb].
    - intros _. exists [], e, l. auto.
    - intros H. destruct (IH H) as (p & x & q & -> & Hx & ->). exists (e :: p), x, q. auto.
  Qed.
  Lemma Forall2_same {A} (P : A -> A -> Prop) (l : list A) : (forall x, P x x) -> Forall2 P l l.
  Proof. intros H. induction l; constructor; auto. Qed.
  Lemma again v l : sorted ltb l -> sp_contains eqb v l = true ->
    Forall2 (fun x y => ltb x y = false /\ ltb y x = false) l (sp_add ltb v (sp_discard eqb v l)).
  Proof.
    intros HS Hc. destruct (discard_split v l Hc) as (p & x & q & -> & Hx & ->). destruct (HE x v Hx) as [E1 E2].
    pose proof (sorted_app_inv ltb _ _ HS) as (S1 & S2 & S3). pose proof (sorted_cons_inv ltb _ _ S2) as [S4 S5].
    destruct (sp_add_cases ltb HO v q S4) as (q1 & q2 & -> & _ & H1 & H2).
    rewrite app_assoc, sp_add_split.
    2:{ intros y Hy. apply in_app_or in Hy as [Hy|Hy]; [|apply H1; exact Hy]. eapply (swo_le_trans ltb HO); [|exact E2]. apply S3; [exact Hy|left; reflexivity]. }
    2:exact H2.
    rewrite <- app_assoc. apply Forall2_app; [apply Forall2_same; intros y; rewrite (swo_irrefl HO); auto|].
    assert (T : forall y, In y q1 -> ltb y v = false /\ ltb v y = false).
    { intros y Hy. split; [|apply H1; exact Hy]. eapply (swo_le_trans ltb HO); [exact E1|]. apply S5, in_or_app. auto. }
    assert (X : ltb x v = false /\ ltb v x = false) by auto. clear - HO T X. revert x X.
    induction q1 as [|y q1 IH]; intros x X; cbn [app].
    - constructor; [exact X|]. apply Forall2_same. intros z. rewrite (swo_irrefl HO). auto.
    - constructor; [|apply IH; [intros z Hz; apply T; right; exact Hz|apply T; left; reflexivity]].
      destruct (T y (or_introl Logic.eq_refl)) as [T1 T2]. destruct X as [X1 X2]. split; eapply (swo_le_trans ltb HO); eauto.
  Qed.
End Plain.

Section Sim.
  Context {V S : Type}.
  Variable do : lop V -> S -> out V * S.
  Variables ltb eqb vltb : V -> V -> bool.
  Variable Rel : S -> list V -> Prop.
  Hypothesis HO : SWO ltb.
  Hypothesis HE : EqCompat ltb eqb.
  Hypothesis Hsim : forall s l o, Rel s l -> lop_ok o -> (forall op x, o <> LCompare op x) ->
    exists s', do o s = (fst (sp_step ltb eqb vltb o l), s') /\ Rel s' (snd (sp_step ltb eqb vltb o l)).
  Hypothesis Hsorted : forall s l, Rel s l -> sorted ltb l.
  Notation sp := (sp_step ltb eqb vltb).

  Lemma ask_ok s l o : Rel s l -> lop_ok o -> (forall op x, o <> LCompare op x) -> ask do o s = fst (sp o l) /\ Rel (after do o s) (snd (sp o l)).
  Proof. intros H H1 H2. unfold ask, after. destruct (Hsim s l o H H1 H2) as (s' & -> & G). auto. Qed.
  Ltac ok := first [exact I|discriminate|(intros; discriminate)].
  Ltac run1 H o := let Q1 := fresh "A" in let Q2 := fresh "B" in destruct (ask_ok _ _ o H ltac:(ok) ltac:(ok)) as [Q1 Q2]; cbn [sp_step fst snd] in Q1, Q2.

  Lemma laws s l : Rel s l -> list_laws do ltb eqb s.
  Proof.
    intros H. pose proof (Hsorted s l H) as HS. run1 H (@LIter V).
    assert (FT : forall i j, ask do (from_to i j) s = RList (slicen l (cl (length l) 0 i) (cl (length l) (length l) j))).
    { intros i j. run1 H (@LSlice V (mkslice i j None)). unfold from_to. rewrite A0, slice_cl. reflexivity. }
    assert (IT : forall o, lop_ok o -> (forall op x, o <> LCompare op x) -> ask do LIter (after do o s) = RList (snd (sp o l))).
    { intros o H1 H2. destruct (ask_ok s l o H H1 H2) as [_ G]. run1 G (@LIter V). exact A0. }
    split.
    - intros mn mx a b i j Hi Hj. rewrite FT. run1 H (LIRange mn mx a b false). rewrite A0. f_equal. rewrite irange_slicen by assumption. f_equal.
      + destruct mn as [m|]; cbn [bound place_lo] in *; [|subst i; reflexivity]. destruct Hi as (k & E & ->). destruct a.
        * run1 H (LBisectLeft m). rewrite A1 in E. injection E as <-. symmetry. apply cl_some, left_le.
        * run1 H (LBisectRight m). rewrite A1 in E. injection E as <-. symmetry. apply cl_some, right_le.
      + destruct mx as [m|]; cbn [bound place_hi] in *; [|subst j; unfold cl; cbn [slice_adjust]; rewrite Nat2Z.id; reflexivity]. destruct Hj as (k & E & ->). destruct b.
        * run1 H (LBisectRight m). rewrite A1 in E. injection E as <-. symmetry. apply cl_some, right_le.
        * run1 H (LBisectLeft m). rewrite A1 in E. injection E as <-. symmetry. apply cl_some, left_le.
    - intros i j. rewrite FT. run1 H (@LISlice V i j false). rewrite A0, slice_cl. reflexivity.
    - rewrite A, FT. f_equal. unfold cl. cbn [slice_adjust]. rewrite !Nat2Z.id. symmetry. apply slicen_all.
    - split; [run1 H (@LReversed V); rewrite A, A0; reflexivity|]. split.
      + intros mn mx a b. run1 H (LIRange mn mx a b false). run1 H (LIRange mn mx a b true). rewrite A0, A1. reflexivity.
      + intros i j. run1 H (@LISlice V i j false). run1 H (@LISlice V i j true). rewrite A0, A1, slice_cl. reflexivity.
    - intros v. run1 H (LContains v). run1 H (LCount v). run1 H (LIndex v None None). run1 H (LRemove v).
      exists (sp_contains eqb v l), (sp_count eqb v l). split; [exact A0|]. split; [exact A1|]. split.
      { unfold sp_contains, sp_count. rewrite existsb_exists. split.
        - intros (x & Hx & E). assert (Q : In x (filter (fun e => eqb e v) l)) by (apply filter_In; auto). destruct (filter _ l); [contradiction|cbn; lia].
        - intros Q. destruct (filter (fun e => eqb e v) l) as [|x t] eqn:F; [cbn in Q; lia|]. exists x. apply (filter_In (fun e => eqb e v)). rewrite F. left. reflexivity. }
      rewrite A2, A3. unfold sp_remove. split; intros Ec; rewrite Ec; cbn [fst of_res].
      + split; [|reflexivity]. destruct (index_any eqb v l Ec) as [k ->]. exists k. reflexivity.
      + rewrite index_no by exact Ec. split; reflexivity.
    - intros v a b k E. run1 H (LIndex v a b). rewrite A0 in E. destruct (sp_index eqb v a b l) as [k'|e] eqn:Ei; [|discriminate]. injection E as ->.
      destruct (index_some eqb v a b l k Ei) as (x & Hn & Hx). run1 H (@LGet V (Z.of_nat k)). run1 H (LBisectLeft v). run1 H (LBisectRight v).
      exists x, (sp_bisect_left ltb v l), (sp_bisect_right ltb v l). split.
      { rewrite A1, getz_nonneg by lia. rewrite Nat2Z.id. unfold getn. rewrite Hn. reflexivity. }
      split; [exact Hx|]. split; [exact A2|]. split; [exact A3|]. eapply index_place; eauto.
    - intros v. run1 H (LBisectRight v). run1 H (LBisectLeft v). run1 H (LAdd v). destruct (sp_add_cases ltb HO v l HS) as (l1 & l2 & El & Ea & H1 & H2).
      assert (R : sp_bisect_right ltb v l = length l1).
      { unfold sp_bisect_right. rewrite El, filter_app, filter_all, filter_none, app_nil_r; [reflexivity| |]; intros x Hx; [rewrite H2; auto|rewrite H1; auto]. }
      rewrite Ea in B2. exists (length l1). rewrite R in A0. split; [exact A0|].
      run1 B2 (@LGet V (Z.of_nat (length l1))). run1 B2 (LBisectRight v). run1 B2 (LBisectLeft v). run1 B2 (@LDel V (Z.of_nat (length l1))).
      split; [rewrite A3, getz_nonneg by lia; rewrite Nat2Z.id, getn_app; reflexivity|]. split.
      { rewrite A4. f_equal. unfold sp_bisect_right. rewrite filter_app. cbn [filter]. rewrite (swo_irrefl HO). cbn [negb].
        rewrite filter_all, filter_none, app_length; [cbn; lia| |]; intros x Hx; [rewrite H2; auto|rewrite H1; auto]. }
      split.
      { rewrite A5, A1. f_equal. unfold sp_bisect_left. rewrite El, !filter_app, !app_length. cbn [filter]. rewrite (swo_irrefl HO). reflexivity. }
      rewrite sp_del_mid in B6. cbn [snd] in B6. run1 B6 (@LIter V). rewrite A7, A, El. reflexivity.
    - intros i. run1 H (@LPop V i). run1 H (@LGet V i). run1 H (@LDel V i). run1 B0 (@LIter V). run1 B2 (@LIter V).
      rewrite A0, A1, A3, A4. destruct (pop_both l i) as [(v & l' & -> & ->)|[-> ->]]; split; reflexivity.
    - intros v E. run1 H (LRemove v). rewrite A0 in E. unfold sp_remove in *. destruct (sp_contains eqb v l) eqn:Ec; [|discriminate]. cbn [fst snd] in *.
      run1 B0 (LAdd v). run1 B1 (@LIter V). eexists _, _. split; [exact A|]. split; [exact A2|]. apply again; assumption.
    - intros it. split; [intros it'|split].
      + rewrite IT by ok. run1 H (LUpdate it). run1 B0 (LUpdate it'). run1 B1 (@LIter V). rewrite A2. cbn [sp_step snd]. f_equal. unfold sp_update.
        rewrite sp_sort_app_l by exact HO. rewrite app_assoc. reflexivity.
      + rewrite !IT by ok. reflexivity.
      + rewrite !IT by ok. reflexivity.
    - intros v. rewrite !IT by ok. cbn [sp_step snd]. f_equal. unfold sp_update. rewrite sp_sort_snoc by exact HO. rewrite sp_sort_id by assumption. reflexivity.
    - intros i. eexists _, _. split; [apply FT|]. split; [apply FT|]. rewrite A. f_equal. rewrite (cl_dflt _ 0 (length l)).
      replace (cl (length l) 0 None) with 0 by reflexivity. replace (cl (length l) (length l) None) with (length l) by (unfold cl; cbn; lia).
      rewrite slicen_to, slicen_from. symmetry. apply firstn_skipn.
    - intros i j Hij. eexists _, _. split; [apply FT|]. split; [apply FT|]. rewrite IT by ok. cbn [sp_step snd]. unfold sp_del_slice. rewrite indices_cl. cbn [rbind snd].
      pose proof (cl_mono (length l) 0 (length l) i j Hij). pose proof (cl_le (length l) (length l) (Some j) (le_n _)).
      rewrite drop_range by lia. rewrite !Nat2Z.id. f_equal.
      replace (cl (length l) 0 None) with 0 by reflexivity. replace (cl (length l) (length l) None) with (length l) by (unfold cl; cbn; lia).
      rewrite slicen_to, slicen_from. reflexivity.
    - intros n Hn. exists l. split; [exact A|]. split; [|split].
      + rewrite IT by ok. run1 H (@LMul V n). run1 B0 (LUpdate l). run1 B1 (@LIter V). rewrite A2. cbn [sp_step snd]. f_equal. unfold sp_update.
        rewrite sp_sort_app_l by exact HO. f_equal. unfold sp_mul. replace (Z.to_nat (n + 1)) with (Z.to_nat n + 1) by lia.
        rewrite repeat_app, concat_app. cbn. rewrite app_nil_r. reflexivity.
      + rewrite !IT by ok. reflexivity.
      + rewrite !IT by ok. reflexivity.
  Qed.
  Lemma counts s l : (forall x y, eqb x y = negb (ltb x y) && negb (ltb y x)) -> Rel s l -> count_law do s.
  Proof.
    intros HQ H v. pose proof (Hsorted s l H) as HS. run1 H (LBisectLeft v). run1 H (LCount v). run1 H (LBisectRight v).
    eexists _, _. split; [exact A|]. split; [exact A0|]. rewrite A1. f_equal. unfold sp_bisect_left, sp_bisect_right, sp_count.
    clear - HQ HO. induction l as [|x l IH]; cbn [filter]; [reflexivity|]. rewrite HQ. destruct (ltb x v) eqn:E1, (ltb v x) eqn:E2; cbn [negb andb length]; try lia.
    rewrite (swo_asym ltb HO x v E1) in E2. discriminate.
  Qed.
End Sim.

Section KSim.
  Context {V K : Type}.
  Variable key : V -> K.
  Variable kltb : K -> K -> bool.
  Hypothesis HK : SWO kltb.
  Lemma irange_key_slicen mn mx a b l : sorted (by_key key kltb) l -> sp_irange_key key kltb mn mx a b false l =
    slicen l (match mn with None => 0 | Some m => if a then sp_bisect_key_left key kltb m l else sp_bisect_key_right key kltb m l end)
             (match mx with None => length l | Some m => if b then sp_bisect_key_right key kltb m l else sp_bisect_key_left key kltb m l end).
  Proof.
    intros HS. unfold sp_irange_key. cbv zeta.
    rewrite (between (by_key key kltb) (fun e => match mn with None => true | Some m => if a then negb (kltb (key e) m) else kltb m (key e) end)
                     (fun e => match mx with None => true | Some m => if b then negb (kltb m (key e)) else kltb (key e) m end) l HS).
    - f_equal.
      + destruct mn as [m|]; [destruct a|].
        * unfold sp_bisect_key_left. f_equal. apply filter_ext. intros e. apply negb_involutive.
        * reflexivity.
        * rewrite filter_none; [reflexivity|]. reflexivity.
      + destruct mx as [m|]; [destruct b; reflexivity|]. rewrite filter_all; [reflexivity|]. reflexivity.
    - unfold by_key. intros x y Hxy Hx. destruct mn as [m|]; [|reflexivity]. destruct a.
      + apply negb_true_iff in Hx. apply negb_true_iff. eapply (swo_le_trans kltb HK); eauto.
      + eapply (swo_lt_le kltb HK); eauto.
    - unfold by_key. intros x y Hxy Hy. destruct mx as [m|]; [|reflexivity]. destruct b.
      + apply negb_true_iff in Hy. apply negb_true_iff. eapply (swo_le_trans kltb HK); eauto.
      + eapply (swo_le_lt kltb HK); eauto.
  Qed.
End KSim.

(** ** C124 *)
Lemma c124_list : forall V (ltb eqb : V -> V -> bool) dflt c, TotalOrder ltb eqb -> 1 <= dflt -> sl_reach ltb eqb dflt c ->
  list_laws (sl_do ltb eqb dflt) ltb eqb c /\ count_law (sl_do ltb eqb dflt) c.
Proof.
  intros V ltb eqb dflt c HT Hd HR.
  assert (Q : forall s l o, (sl_reach ltb eqb dflt s /\ shows s l) -> lop_ok o -> (forall op x, o <> LCompare op x) ->
    exists s', sl_do ltb eqb dflt o s = (fst (sp_step ltb eqb ltb o l), s') /\ (sl_reach ltb eqb dflt s' /\ shows s' (snd (sp_step ltb eqb ltb o l)))).
  { intros s l o [H1 H2] Ho _. apply do_ok; assumption. }
  assert (Qs : forall s l, (sl_reach ltb eqb dflt s /\ shows s l) -> sorted ltb l) by (intros s l [H1 H2]; eapply reach_sorted; eauto).
  assert (C : sl_reach ltb eqb dflt c /\ shows c (contents c)) by (split; [exact HR|apply shows_contents]).
  split.
  - apply (laws (sl_do ltb eqb dflt) ltb eqb ltb (fun s l => sl_reach ltb eqb dflt s /\ shows s l) (to_swo HT)) with (l := contents c); auto.
    intros x y H. rewrite (to_eq HT) in H. apply andb_true_iff in H as [H1 H2]. apply negb_true_iff in H1, H2. auto.
  - apply (counts (sl_do ltb eqb dflt) ltb eqb ltb (fun s l => sl_reach ltb eqb dflt s /\ shows s l) (to_swo HT)) with (l := contents c); auto.
    apply (to_eq HT).
Qed.

Lemma c124_keylist : forall V K (key : V -> K) (kltb keqb : K -> K -> bool) (vltb eqb : V -> V -> bool) dflt s,
  TotalOrder kltb keqb -> EqCompat (by_key key kltb) eqb -> 1 <= dflt -> skl_reach key kltb keqb vltb eqb dflt s ->
  list_laws (fun o => skl_do key kltb keqb vltb eqb dflt (KList o)) (by_key key kltb) eqb s /\ key_laws (skl_do key kltb keqb vltb eqb dflt) key s.
Proof.
  intros V K key kltb keqb vltb eqb dflt s HT HE Hd HR. split.
  - apply (laws (fun o => skl_do key kltb keqb vltb eqb dflt (KList o)) (by_key key kltb) eqb vltb
             (fun s l => skl_reach key kltb keqb vltb eqb dflt s /\ kshows s l) (by_key_swo key kltb (to_swo HT)) HE) with (l := contents (kc s)).
    + intros t l o [H1 H2] Ho Hn. apply (kdo_ok key kltb keqb vltb eqb dflt HT HE Hd t l (KList o) H1 H2 Ho).
      destruct o; try exact I. exfalso. eapply Hn. reflexivity.
    + intros t l [H1 H2]. eapply kreach_sorted; eauto.
    + split; [exact HR|]. apply kshows_iff. reflexivity.
  - set (l := contents (kc s)). assert (Hl : kshows s l) by (apply kshows_iff; reflexivity).
    pose proof (kreach_sorted key kltb keqb vltb eqb dflt HT HE Hd s l HR Hl) as HS.
    assert (Q : forall o, kop_ok o -> kcmp_ok vltb eqb o -> kask (skl_do key kltb keqb vltb eqb dflt) o s = fst (sp_kstep eqb vltb key kltb o l)).
    { intros o H1 H2. unfold kask. destruct (kdo_ok key kltb keqb vltb eqb dflt HT HE Hd s l o HR Hl H1 H2) as (s' & -> & _). reflexivity. }
    split.
    + intros v. rewrite !Q by exact I. split; reflexivity.
    + intros mn mx a b r. rewrite !Q by exact I. destruct mn, mx; reflexivity.
    + intros mn mx a b i j Hi Hj. rewrite !Q by exact I. cbn [from_to sp_kstep sp_step fst]. rewrite slice_cl. cbn [of_res]. f_equal.
      rewrite (irange_key_slicen key kltb (to_swo HT)) by exact HS. f_equal.
      * destruct mn as [m|]; cbn [kbound] in *; [|subst i; reflexivity]. destruct Hi as (k & E & ->).
        destruct a; rewrite Q in E by exact I; injection E as <-; symmetry; apply cl_some, filter_le.
      * destruct mx as [m|]; cbn [kbound] in *; [|subst j; unfold cl; cbn [slice_adjust]; rewrite Nat2Z.id; reflexivity]. destruct Hj as (k & E & ->).
        destruct b; rewrite Q in E by exact I; injection E as <-; symmetry; apply cl_some, filter_le.
    + intros mn mx a b. rewrite !Q by exact I. reflexivity.
Qed.

(** * Which list operations compare values (proofs) *)
From Coq Require Import Permutation.
From Verif Require Import PyBase BaseFacts Model Spec SpecFacts SliceFacts History CoreFacts Shape KeyFacts VtFacts ListSim ListClass OrderSpec.
Local Unset Implicit Arguments.

Lemma o_bind_get {S B} (f : S -> M S B) s : bind get f s = f s s.
Proof. reflexivity. Qed.
Lemma some_false {A} (l : list A) : some l = false -> l = [].
Proof. destruct l; [reflexivity|discriminate]. Qed.
Lemma some_true {A} (l : list A) : some l = true -> l <> [].
Proof. destruct l; [discriminate|congruence]. Qed.
Lemma many_false {A} (l : list A) : many l = false <-> length l <= 1.
Proof. unfold many. rewrite Nat.leb_gt. lia. Qed.
Lemma many_true {A} (l : list A) : many l = true <-> 2 <= length l.
Proof. unfold many. apply Nat.leb_le. Qed.
Lemma o_window a b n : (0 <= n)%Z -> (win_start a n <? Z.min n (win_stop b n))%Z = negb (index_stop b n <=? index_start a n)%Z.
Proof.
  intros Hn. unfold win_start, win_stop, index_start, index_stop. cbv zeta.
  destruct a as [a|], b as [b|]; cbn [Z.ltb Z.compare];
    repeat match goal with |- context [if (?x <? ?y)%Z then _ else _] =>
      match x with context [if _ then _ else _] => fail 1 | _ => match y with context [if _ then _ else _] => fail 1 | _ => destruct (Z.ltb_spec x y) end end end;
    match goal with |- (?x <? ?y)%Z = negb (?z <=? ?t)%Z => destruct (Z.ltb_spec x y), (Z.leb_spec z t) end; cbn; try reflexivity; lia.
Qed.

(** ** Searching and sorting with comparisons that raise *)
Section Raise.
  Context {A : Type}.
  Variable lt : A -> A -> res bool.
  Variable e : exn.
  Hypothesis Hlt : forall x y, lt x y = Err e.
  Lemma bisect_left_raise l x : l <> [] -> bisect_left lt l x = Err e.
  Proof.
    intros H. unfold bisect_left. cbn [bisect_left_loop]. destruct l as [|a l]; [congruence|]. cbn [length Nat.ltb Nat.leb].
    destruct (getn_lt (a :: l) ((0 + S (length l)) / 2)) as [y ->]; [|cbn [rbind]; rewrite Hlt; reflexivity].
    cbn [length]. apply Nat.div_lt; lia.
  Qed.
  Lemma bisect_right_raise l x : l <> [] -> bisect_right lt l x = Err e.
  Proof.
    intros H. unfold bisect_right. cbn [bisect_right_loop]. destruct l as [|a l]; [congruence|]. cbn [length Nat.ltb Nat.leb].
    destruct (getn_lt (a :: l) ((0 + S (length l)) / 2)) as [y ->]; [|cbn [rbind]; rewrite Hlt; reflexivity].
    cbn [length]. apply Nat.div_lt; lia.
  Qed.
  Lemma sorted_raise l : 2 <= length l -> py_sorted lt l = Err e.
  Proof. destruct l as [|a [|b l]]; cbn; try lia. intros _. rewrite Hlt. reflexivity. Qed.
End Raise.
Lemma sorted_short {A} (lt lt' : A -> A -> res bool) l : length l <= 1 -> py_sorted lt l = py_sorted lt' l.
Proof. destruct l as [|a [|b l]]; cbn; try lia; reflexivity. Qed.
Lemma sorted_few {A} (lt : A -> A -> res bool) l : length l <= 1 -> py_sorted lt l = Ok l.
Proof. destruct l as [|a [|b l]]; cbn; try lia; reflexivity. Qed.
Lemma sorted_key_few {V K} (klt : K -> K -> res bool) key (l : list V) : length l <= 1 -> py_sorted_key klt (total1 key) l = Ok l.
Proof. destruct l as [|a [|b l]]; cbn; try lia; reflexivity. Qed.
Lemma sorted_key_raise {V K} (klt : K -> K -> res bool) key e (l : list V) : (forall x y, klt x y = Err e) -> 2 <= length l ->
  py_sorted_key klt (total1 key) l = Err e.
Proof. intros H. destruct l as [|a [|b l]]; cbn [length]; try lia. intros _. unfold py_sorted_key. assert (E : forall m, mapR (total1 key) m = Ok (map key m)) by (induction m as [|x m IH]; [reflexivity|cbn; rewrite IH; reflexivity]). rewrite E. cbn. rewrite H. reflexivity. Qed.

(** ** Deleting a slice *)
Section Del.
  Context {S V K : Type}.
  Variable g : S -> core V K.
  Variable p : core V K -> S -> S.
  Variable cl : M S unit.
  Variable dl : nat -> nat -> M S unit.
  Variable Inv : S -> Prop.
  Notation T u := (mkvt g p cl u dl).
  Variable u0 : list V -> M S unit.
  Hypothesis H0 : VtOK (T u0) Inv.
  (** Clearing leaves nothing. *)
  Hypothesis Hcl : forall s, exists s', cl s = (Ok tt, s').

  Lemma o_vt u : VtOK (T u) Inv.
  Proof. destruct H0. constructor; assumption. Qed.
  Lemma o_step_one sl n start stop : slice_indices sl n = Ok (start, stop, 1%Z) -> s_step sl = None \/ s_step sl = Some 1%Z.
  Proof. unfold slice_indices. destruct (s_step sl) as [k|]; [|auto]. cbv zeta. destruct (k =? 0)%Z; [discriminate|]. intros [= _ _ ->]. auto. Qed.
  Lemma o_step_other sl n start stop step : slice_indices sl n = Ok (start, stop, step) -> step <> 1%Z -> exists k, s_step sl = Some k /\ k <> 1%Z.
  Proof.
    unfold slice_indices. destruct (s_step sl) as [k|]; cbv zeta; [destruct (k =? 0)%Z; [discriminate|]|]; intros [= _ _ ->] H; [eauto|]. congruence.
  Qed.

  Lemma o_delslice sl s : Inv s ->
    (list_compares (LDelSlice sl) (contents (g s)) = false /\ forall u, delitem_slice (T u) sl s = delitem_slice (T u0) sl s) \/
    exists s1 s2 rest, Inv s1 /\ cl s1 = (Ok tt, s2) /\ list_compares (LDelSlice sl) (contents (g s)) = many rest /\
      forall u, delitem_slice (T u) sl s = u rest s2.
  Proof.
    intros HI. pose proof (vo_core _ _ H0 _ HI) as HC. pose proof (vlen (T u0) Inv H0 _ HI) as Hl.
    unfold vcont in Hl. cbn [vt_get] in Hl, HC.
    unfold delitem_slice, list_compares, sp_del_slice. rewrite <- Hl.
    destruct (slice_indices sl (len (g s))) as [[[start stop] step]|er] eqn:Es.
    2:{ left. split; [destruct (s_step sl) as [[ |q|q]|]; try destruct q; reflexivity|]. intros u.
        rewrite (bind_ok _ _ _ _ _ (oncore_get (T u) Inv (o_vt u) s)), (bind_ok _ _ _ _ _ (oncore_get (T u0) Inv H0 s)).
        cbn [vt_get]. rewrite Es. reflexivity. }
    cbn [rbind]. destruct (slice_indices_Ok _ _ _ _ _ Es) as (Hs0 & Hpos & Hneg).
    set (body := fun u => (let n := Z.of_nat (len (g s)) in
        let loop := (let indices := rangez start stop step in forM (delitem_int (T u)) (if (0 <? step)%Z then rev indices else indices)) in
        if ((step =? 1) && (start <? stop))%Z then
          if ((start =? 0) && (stop =? n))%Z then vt_clear (T u)
          else if (n <=? 8 * (stop - start))%Z then
            values <- oncore (T u) (getitem_slice (mkslice None (Some start) None)) ;;
            values <- (if (stop <? n)%Z then
                         more <- oncore (T u) (getitem_slice (mkslice (Some stop) None None)) ;;
                         ret (values ++ more)
                       else ret values) ;;
            vt_clear (T u) ;;;
            vt_update (T u) values
          else loop
        else loop) s).
    assert (D : forall u, delitem_slice (T u) sl s = body u).
    { intros u. unfold delitem_slice. rewrite (bind_ok _ _ _ _ _ (oncore_get (T u) Inv (o_vt u) s)). cbn [vt_get]. rewrite Es. reflexivity. }
    unfold delitem_slice in D.
    destruct (Z.eq_dec step 1) as [->|Hstep].
    2:{ left. destruct (o_step_other _ _ _ _ _ Es Hstep) as (k & -> & Hk). split; [destruct k as [ |q|q]; try destruct q; first [reflexivity|congruence]|].
        intros u. rewrite !D. unfold body. cbv zeta. destruct (Z.eqb_spec step 1) as [->|_]; [congruence|]. reflexivity. }
    specialize (Hpos ltac:(lia)).
    set (rest := drop_positions (rangez start stop 1) 0 (contents (g s))) in *.
    assert (HM : match s_step sl, Ok rest with
                 | None, Ok rest | Some 1%Z, Ok rest => (len (g s) <=? 8 * (len (g s) - length rest)) && many rest
                 | _, _ => false
                 end = (len (g s) <=? 8 * (len (g s) - length rest)) && many rest)
      by (destruct (o_step_one _ _ _ _ Es) as [E1|E1]; rewrite E1; reflexivity).
    rewrite HM. clear HM.
    destruct (Z.ltb_spec start stop) as [Hlt|Hge].
    2:{ left. split.
        - assert (E : rest = contents (g s)).
          { unfold rest. replace (rangez start stop 1) with (@nil Z); [apply drop_none; reflexivity|].
            unfold rangez, range_len. cbn [Z.ltb Z.compare]. replace (Z.to_nat ((stop - start + 1 - 1) / 1)) with 0; [reflexivity|].
            rewrite Z.div_1_r. lia. }
          rewrite E, <- Hl. destruct (Nat.leb_spec (len (g s)) (8 * (len (g s) - len (g s)))) as [Hz|Hz]; [|reflexivity].
          destruct (contents (g s)); [reflexivity|cbn in Hl; lia].
        - intros u. rewrite !D. unfold body. cbv zeta. destruct (Z.ltb_spec start stop); [lia|]. rewrite andb_false_r. reflexivity. }
    assert (HR : rest = firstn (Z.to_nat start) (contents (g s)) ++ skipn (Z.to_nat stop) (contents (g s))) by (apply drop_range; lia).
    destruct ((start =? 0) && (stop =? Z.of_nat (len (g s))))%Z eqn:Eall.
    { left. split.
      - apply andb_true_iff in Eall as [Ea Eb]. apply Z.eqb_eq in Ea, Eb. subst start. rewrite HR, skipn_all2 by lia. cbn. apply andb_false_r.
      - intros u. rewrite !D. unfold body. cbv zeta. change (1 =? 1)%Z with true. rewrite ?(proj2 (Z.ltb_lt _ _) Hlt), !andb_true_l, ?Eall. reflexivity. }
    assert (HL : length rest = Z.to_nat start + (len (g s) - Z.to_nat stop)) by (rewrite HR, app_length, firstn_length, skipn_length; lia).
    destruct (Z.leb_spec (Z.of_nat (len (g s))) (8 * (stop - start))) as [Hbig|Hsmall].
    2:{ left. split.
        - destruct (Nat.leb_spec (len (g s)) (8 * (len (g s) - length rest))); [lia|reflexivity].
        - intros u. rewrite !D. unfold body. cbv zeta. change (1 =? 1)%Z with true.
          rewrite ?(proj2 (Z.ltb_lt _ _) Hlt), !andb_true_l, ?Eall, (proj2 (Z.leb_gt _ _) Hsmall). reflexivity. }
    right. rewrite (proj2 (Nat.leb_le (len (g s)) (8 * (len (g s) - length rest)))) by lia. rewrite andb_true_l.
    destruct (getitem_slice_ok _ (mkslice None (Some start) None) HC) as (c1 & G1 & T1).
    destruct (oncore_ok (T u0) Inv H0 _ s _ _ HI G1 T1) as (s1 & Hs1 & HI1 & Hc1 & Hls1 & Hld1).
    unfold vcont in *. cbn [vt_get] in *.
    unfold sp_slice in Hs1. rewrite <- Hl in Hs1. rewrite slice_indices_to in Hs1 by lia. cbn [rbind] in Hs1.
    rewrite mapR_getz_rangez in Hs1 by lia. cbn [Z.to_nat] in Hs1.
    assert (V1 : slicen (contents (g s)) 0 (Z.to_nat start) = firstn (Z.to_nat start) (contents (g s))).
    { unfold slicen. cbn. rewrite Nat.sub_0_r. reflexivity. }
    rewrite V1 in Hs1.
    assert (More : exists s2, (if (stop <? Z.of_nat (len (g s)))%Z
                 then more <- oncore (T u0) (getitem_slice (mkslice (Some stop) None None));;
                      ret (firstn (Z.to_nat start) (contents (g s)) ++ more)
                 else ret (firstn (Z.to_nat start) (contents (g s)))) s1 = (Ok rest, s2) /\ Inv s2).
    { rewrite HR. destruct (Z.ltb_spec stop (Z.of_nat (len (g s)))) as [Hlt2|Hge].
      - destruct (getitem_slice_ok _ (mkslice (Some stop) None None) (vo_core _ _ H0 _ HI1)) as (c2 & G2 & T2).
        destruct (oncore_ok (T u0) Inv H0 _ s1 _ _ HI1 G2 T2) as (s2 & Hs2 & HI2 & Hc2 & Hls2 & Hld2).
        unfold vcont in *. cbn [vt_get] in *.
        unfold sp_slice in Hs2. rewrite Hc1, <- Hl in Hs2.
        rewrite slice_indices_from in Hs2 by lia. cbn [rbind] in Hs2.
        rewrite mapR_getz_rangez in Hs2 by lia.
        rewrite (bind_ok _ _ _ _ _ Hs2). exists s2. split; [|exact HI2].
        unfold ret. f_equal. f_equal. f_equal. unfold slicen. apply firstn_all2.
        rewrite skipn_length. lia.
      - exists s1. split; [|exact HI1]. rewrite skipn_all2 by lia. rewrite app_nil_r. reflexivity. }
    destruct More as (s2 & Hm & HI2). destruct (Hcl s2) as (s3 & Hs3). exists s2, s3, rest.
    split; [exact HI2|]. split; [exact Hs3|]. split; [reflexivity|].
    intros u. rewrite D. unfold body. cbv zeta. change (1 =? 1)%Z with true. rewrite ?(proj2 (Z.ltb_lt _ _) Hlt), !andb_true_l, ?Eall, (proj2 (Z.leb_le _ _) Hbig).
    etransitivity; [exact (bind_ok _ _ _ _ _ Hs1)|]. etransitivity; [exact (bind_ok _ _ _ _ _ Hm)|].
    etransitivity; [exact (bind_ok _ _ _ _ _ Hs3)|]. reflexivity.
  Qed.
End Del.

(** ** SortedList *)
Section Plain.
  Context {V : Type}.
  Notation SL := (core V V).
  Notation LInv := (@LShape V).

  Lemma p_nil (c : SL) : LInv c -> contents c = [] -> maxes c = [] /\ lists c = [] /\ len c = 0.
  Proof.
    intros H E. destruct (shape_nil_state ident (embed c) H E) as (ix & off & Es & _). apply (f_equal (@kc V V)) in Es.
    rewrite embed_kc in Es. rewrite Es. auto.
  Qed.
  Lemma p_some (c : SL) : LInv c -> contents c <> [] -> maxes c <> [] /\ is_nil (maxes c) = false.
  Proof.
    intros H E. destruct (is_nil (maxes c)) eqn:En; [|split; [intros E2; rewrite E2 in En; discriminate|reflexivity]].
    destruct (lshape_nil_state c H En) as (ix & off & Es). rewrite Es in E. cbn in E. congruence.
  Qed.
  Lemma p_len (c : SL) : LInv c -> len c = length (contents c).
  Proof. intros (rows & _ & H). exact H. Qed.

  Section Quiet.
    Variables lt eq lt' eq' : V -> V -> res bool.
    Variable dflt : nat.
    Lemma p_update_nil it (c : SL) : maxes c = [] -> length it <= 1 -> sl_update lt it c = sl_update lt' it c.
    Proof. intros Hm Hi. unfold sl_update. rewrite !sorted_few by exact Hi. unfold bind, liftr, get. rewrite Hm. reflexivity. Qed.
    Lemma p_update_none (c : SL) : LInv c -> sl_update lt [] c = sl_update lt' [] c.
    Proof.
      intros H. unfold sl_update. cbn [py_sorted sort_acc]. unfold bind, liftr, get. destruct (is_nil (maxes c)) eqn:En; [reflexivity|].
      destruct (Nat.leb_spec (len c) (length (@nil V) * 4)) as [Hl|Hl]; [|reflexivity]. cbn in Hl.
      assert (E : contents c = []). { rewrite (p_len c H) in Hl. destruct (contents c); [reflexivity|cbn in Hl; lia]. }
      destruct (p_nil c H E) as [E2 _]. rewrite E2 in En. discriminate.
    Qed.
    Lemma p_update it (c : SL) : LInv c -> some it && many (contents c ++ it) = false -> sl_update lt it c = sl_update lt' it c.
    Proof.
      intros H E. destruct it as [|v it]; [apply p_update_none; exact H|]. cbn [some is_nil negb] in E. rewrite andb_true_l in E.
      apply many_false in E. rewrite app_length in E. cbn [length] in E.
      apply p_update_nil; [|cbn [length]; lia]. apply (p_nil c H). destruct (contents c); [reflexivity|cbn in E; lia].
    Qed.
    Lemma p_new it : length it <= 1 -> sl_new lt dflt it = sl_new lt' dflt it.
    Proof. intros H. unfold sl_new. rewrite (p_update_nil it (core_empty dflt) Logic.eq_refl H). reflexivity. Qed.
    Lemma p_add v (c : SL) : maxes c = [] -> sl_add lt v c = sl_add lt' v c.
    Proof. intros Hm. unfold sl_add, bind, get. rewrite Hm. reflexivity. Qed.
    Lemma p_delslice sl (c : SL) : LInv c -> list_compares (LDelSlice sl) (contents c) = false ->
      delitem_slice (sl_vt lt) sl c = delitem_slice (sl_vt lt') sl c.
    Proof.
      intros H E.
      destruct (o_delslice _ _ _ _ LInv _ (sl_vt_ok lt : VtOK (mkvt (fun c : SL => c) (fun c _ => c) sl_clear (sl_update lt) sl_delete) LInv)
        (fun s => ex_intro _ _ Logic.eq_refl) sl c H) as [[_ G]|(s1 & s2 & rest & _ & Hs2 & Em & G)].
      - unfold sl_vt. rewrite (G (sl_update lt')). reflexivity.
      - unfold sl_vt. rewrite (G (sl_update lt)), (G (sl_update lt')). injection Hs2 as <-. rewrite E in Em. symmetry in Em. apply many_false in Em.
        apply p_update_nil; [reflexivity|exact Em].
    Qed.
    Lemma p_quiet o (c : SL) : LInv c -> list_compares o (contents c) = false -> sl_step lt eq dflt o c = sl_step lt' eq' dflt o c.
    Proof.
      intros H E.
      assert (HN : some (contents c) = false -> maxes c = []) by (intros G; apply (p_nil c H), some_false, G).
      destruct o; try reflexivity; cbn [sl_step]; try (unfold observe; rewrite (p_delslice sl c H E); reflexivity); unfold observe, rebind; cbn [list_compares] in E;
        try (specialize (HN E)).
      - rewrite (p_add v c HN). reflexivity.
      - rewrite (p_update it c H E). reflexivity.
      - unfold sl_discard, bind, get. rewrite HN. reflexivity.
      - unfold sl_remove, bind, get. rewrite HN. reflexivity.
      - unfold sl_contains, bind, get. rewrite HN. reflexivity.
      - unfold sl_bisect_left, bind, get. rewrite HN. reflexivity.
      - unfold sl_bisect_right, bind, get. rewrite HN. reflexivity.
      - unfold sl_count, bind, get. rewrite HN. reflexivity.
      - unfold sl_index. rewrite !o_bind_get. destruct (len c =? 0) eqn:En; [reflexivity|]. cbv zeta.
        cbv zeta in E. rewrite o_window in E by lia. rewrite <- (p_len c H) in E. apply negb_false_iff in E. rewrite E. reflexivity.
      - unfold sl_irange. rewrite !o_bind_get. destruct (is_nil (maxes c)) eqn:En; [reflexivity|].
        apply andb_false_iff in E as [E|E]; [rewrite (HN E) in En; discriminate|]. destruct mn, mx; try discriminate. reflexivity.
      - unfold reset, oncore, zoom, bind, get. cbn [vt_get vt_put vt_clear vt_update sl_vt]. unfold sl_clear, modify. cbn [kc].
        apply many_false in E. rewrite (p_update_nil (contents c)); [reflexivity|reflexivity|exact E].
      - unfold iadd. cbn [vt_update sl_vt]. rewrite (p_update it c H E). reflexivity.
      - unfold imul, oncore, zoom, bind, get. cbn [vt_get vt_put vt_clear vt_update sl_vt]. unfold sl_clear, modify.
        apply many_false in E. rewrite (p_update_nil (list_mul (contents c) n)); [reflexivity|reflexivity|exact E].
      - unfold sl_copy, bind, get, liftr. apply many_false in E. fold (contents c). rewrite (p_new _ E). reflexivity.
      - unfold sl_plus, bind, get, liftr. apply many_false in E. rewrite (p_new _ E). reflexivity.
      - unfold sl_mul, bind, get, liftr. apply many_false in E. rewrite (p_new (list_mul (contents c) n) E). reflexivity.
      - unfold sl_reduce, bind, get, liftr. apply many_false in E. rewrite (p_new _ E). reflexivity.
      - unfold compare, bind, get, liftr, ret. rewrite (p_len c H). fold (contents c).
        destruct (length (contents c) =? length other) eqn:El.
        + cbn [negb andb orb] in *. rewrite andb_true_r in E. destruct (contents c), other; try discriminate; try reflexivity.
        + cbn [orb negb andb] in *. destruct op; try reflexivity; rewrite andb_true_r in E; destruct (contents c), other; try discriminate; reflexivity.
    Qed.
  End Quiet.

  Section Loud.
    Variables lt eq : V -> V -> res bool.
    Variable dflt : nat.
    Variable e : exn.
    Hypothesis Hlt : forall x y, lt x y = Err e.
    Hypothesis Heq : forall x y, eq x y = Err e.
    Notation raises m s := (exists s', m s = (Err e, s')).
    Lemma pr_sorted it (c : SL) : 2 <= length it -> raises (sl_update lt it) c.
    Proof. intros H. unfold sl_update. rewrite (sorted_raise lt e Hlt it H). eexists. reflexivity. Qed.
    Lemma pr_new it : 2 <= length it -> sl_new lt dflt it = Err e.
    Proof. intros H. unfold sl_new. destruct (pr_sorted it (core_empty dflt) H) as [s' ->]. reflexivity. Qed.
    Lemma pr_add v (c : SL) : LInv c -> contents c <> [] -> raises (sl_add lt v) c.
    Proof. intros H E. destruct (p_some c H E) as [Hm En]. unfold sl_add, bind, get, liftr. rewrite En, (bisect_right_raise lt e Hlt _ v Hm). eexists. reflexivity. Qed.
    Lemma pr_remove v (c : SL) : LInv c -> contents c <> [] -> raises (sl_remove lt eq v) c.
    Proof. intros H E. destruct (p_some c H E) as [Hm En]. unfold sl_remove, bind, get, liftr. rewrite En, (bisect_left_raise lt e Hlt _ v Hm). eexists. reflexivity. Qed.
    Lemma pr_update it (c : SL) : LInv c -> some it && many (contents c ++ it) = true -> raises (sl_update lt it) c.
    Proof.
      intros H E. apply andb_true_iff in E as [E1 E2]. apply many_true in E2. rewrite app_length in E2.
      destruct (Nat.le_gt_cases 2 (length it)) as [Hi|Hi]; [apply pr_sorted; exact Hi|].
      destruct it as [|v [|w it]]; [discriminate| |cbn in Hi; lia]. cbn [length] in E2.
      assert (E : contents c <> []) by (intros E; rewrite E in E2; cbn in E2; lia). destruct (p_some c H E) as [Hm En].
      unfold sl_update. cbn [py_sorted sort_acc sort_ins]. unfold bind at 1. cbn [py_sorted sort_acc sort_ins rbind liftr]. rewrite o_bind_get, En.
      destruct (len c <=? length [v] * 4).
      - unfold bind, modify, get, liftr, set_lists. cbn [lists]. rewrite sorted_raise with (e := e); [eexists; reflexivity|exact Hlt|].
        rewrite concat_app, app_length. cbn. fold (contents c). lia.
      - cbn [forM]. destruct (pr_add v c H E) as [s' Es]. unfold bind. rewrite Es. eexists. reflexivity.
    Qed.
    Lemma pr_delslice sl (c : SL) : LInv c -> list_compares (LDelSlice sl) (contents c) = true -> raises (delitem_slice (sl_vt lt) sl) c.
    Proof.
      intros H E.
      destruct (o_delslice _ _ _ _ LInv _ (sl_vt_ok lt : VtOK (mkvt (fun c : SL => c) (fun c _ => c) sl_clear (sl_update lt) sl_delete) LInv)
        (fun s => ex_intro _ _ Logic.eq_refl) sl c H) as [[E2 _]|(s1 & s2 & rest & _ & Hs2 & Em & G)]; [congruence|].
      unfold sl_vt. rewrite (G (sl_update lt)). apply pr_sorted, many_true. congruence.
    Qed.
    Lemma p_loud o (c : SL) : LInv c -> list_compares o (contents c) = true -> fst (sl_step lt eq dflt o c) = RExn e.
    Proof.
      intros H E.
      assert (HN : some (contents c) = true -> maxes c <> [] /\ is_nil (maxes c) = false) by (intros G; apply (p_some c H), some_true, G).
      destruct o; try discriminate; cbn [sl_step]; try (unfold observe; destruct (pr_delslice sl c H E) as [s' ->]; reflexivity); unfold observe, rebind; cbn [list_compares] in E;
        try (destruct (HN E) as [Hm En]).
      - destruct (pr_add v c H (some_true _ E)) as [s' ->]. reflexivity.
      - destruct (pr_update it c H E) as [s' ->]. reflexivity.
      - unfold sl_discard, bind, get, liftr. rewrite En, (bisect_left_raise lt e Hlt _ v Hm). reflexivity.
      - destruct (pr_remove v c H (some_true _ E)) as [s' ->]. reflexivity.
      - unfold sl_contains, bind, get, liftr. rewrite En, (bisect_left_raise lt e Hlt _ v Hm). reflexivity.
      - unfold sl_bisect_left, bind, get, liftr. rewrite En, (bisect_left_raise lt e Hlt _ v Hm). reflexivity.
      - unfold sl_bisect_right, bind, get, liftr. rewrite En, (bisect_right_raise lt e Hlt _ v Hm). reflexivity.
      - unfold sl_count, bind, get, liftr. rewrite En, (bisect_left_raise lt e Hlt _ v Hm). reflexivity.
      - unfold sl_index. rewrite !o_bind_get. cbv zeta in E. rewrite o_window in E by lia. rewrite <- (p_len c H) in E. apply negb_true_iff in E.
        assert (Hn : contents c <> []).
        { intros G. rewrite (p_len c H), G in E. cbn in E. unfold index_start, index_stop in E. cbv zeta in E. apply Z.leb_gt in E.
          revert E. repeat match goal with |- context [if (?x <? ?y)%Z then _ else _] => destruct (Z.ltb_spec x y) end; lia. }
        destruct (p_some c H Hn) as [Hm En]. cbv zeta. rewrite E.
        destruct (Nat.eqb_spec (len c) 0) as [Ez|Ez].
        { rewrite (p_len c H) in Ez. destruct (contents c); [congruence|discriminate]. }
        unfold bind, liftr. rewrite (bisect_left_raise lt e Hlt _ v Hm). reflexivity.
      - apply andb_true_iff in E as [E1 E2]. destruct (HN E1) as [Hm En]. unfold sl_irange. rewrite o_bind_get, En.
        destruct mn as [v|].
        + unfold bind, liftr. destruct imin; [rewrite (bisect_left_raise lt e Hlt _ v Hm)|rewrite (bisect_right_raise lt e Hlt _ v Hm)]; reflexivity.
        + destruct mx as [v|]; [|discriminate]. unfold bind, ret, liftr.
          destruct imax; [rewrite (bisect_right_raise lt e Hlt _ v Hm)|rewrite (bisect_left_raise lt e Hlt _ v Hm)]; reflexivity.
      - unfold reset, oncore, zoom, bind, get. cbn [vt_get vt_put vt_clear vt_update sl_vt]. unfold sl_clear, modify.
        match goal with |- context [sl_update lt ?l ?s] => destruct (pr_sorted l s (proj1 (many_true _) E)) as [s' ->] end. reflexivity.
      - unfold iadd. cbn [vt_update sl_vt]. destruct (pr_update it c H E) as [s' ->]. reflexivity.
      - unfold imul, oncore, zoom, bind, get. cbn [vt_get vt_put vt_clear vt_update sl_vt]. unfold sl_clear, modify.
        match goal with |- context [sl_update lt ?l ?s] => destruct (pr_sorted l s (proj1 (many_true _) E)) as [s' ->] end. reflexivity.
      - unfold sl_copy, bind, get, liftr. fold (contents c). rewrite pr_new by (apply many_true; exact E). reflexivity.
      - unfold sl_plus, bind, get, liftr. rewrite pr_new by (apply many_true; exact E). reflexivity.
      - unfold sl_mul, bind, get, liftr. rewrite pr_new by (apply many_true; exact E). reflexivity.
      - unfold sl_reduce, bind, get, liftr. rewrite pr_new by (apply many_true; exact E). reflexivity.
      - unfold compare, bind, get, liftr, ret. rewrite (p_len c H). fold (contents c).
        apply andb_true_iff in E as [E1 E2]. destruct (contents c) as [|x l], other as [|y l']; try discriminate.
        destruct (length (x :: l) =? length (y :: l')) eqn:El; cbn [negb andb orb] in *.
        + cbn [cmp_loop]. rewrite Heq. reflexivity.
        + destruct op; try discriminate; cbn [cmp_loop]; rewrite Heq; reflexivity.
    Qed.
  End Loud.
End Plain.

(** ** SortedKeyList *)
Section Keyed.
  Context {V K : Type}.
  Variable key : V -> K.
  Notation SKL := (skl V K).
  Notation KShape := (Shape (total1 key)).
  Notation kf := (total1 key).

  Lemma y_nil (s : SKL) : KShape s -> contents (kc s) = [] -> maxes (kc s) = [] /\ lists (kc s) = [] /\ len (kc s) = 0.
  Proof. intros H E. destruct (shape_nil_state _ s H E) as (ix & off & Es & _). rewrite Es. auto. Qed.
  Lemma y_some (s : SKL) : KShape s -> contents (kc s) <> [] -> maxes (kc s) <> [] /\ is_nil (maxes (kc s)) = false.
  Proof.
    intros (rows & H & _) E. destruct (is_nil (maxes (kc s))) eqn:En; [|split; [intros E2; rewrite E2 in En; discriminate|reflexivity]].
    rewrite (shape_nil _ _ _ H En) in H. unfold contents in E. rewrite (sh_lists _ _ _ H) in E. cbn in E. congruence.
  Qed.
  Lemma y_len (s : SKL) : KShape s -> len (kc s) = length (contents (kc s)).
  Proof. intros (rows & _ & H). exact H. Qed.

  Section Quiet.
    Variables vlt eq vlt' eq' : V -> V -> res bool.
    Variables klt keq klt' keq' : K -> K -> res bool.
    Variable dflt : nat.
    Lemma y_update_nil it (s : SKL) : maxes (kc s) = [] -> length it <= 1 -> skl_update klt kf it s = skl_update klt' kf it s.
    Proof. intros Hm Hi. unfold skl_update. rewrite !sorted_key_few by exact Hi. unfold bind, liftr, get. rewrite Hm. reflexivity. Qed.
    Lemma y_update_none (s : SKL) : KShape s -> skl_update klt kf [] s = skl_update klt' kf [] s.
    Proof.
      intros H. unfold skl_update. unfold bind, liftr, get. cbn [py_sorted_key mapR rbind combine py_sorted sort_acc map]. destruct (is_nil (maxes (kc s))) eqn:En; [reflexivity|].
      destruct (Nat.leb_spec (len (kc s)) (length (@nil V) * 4)) as [Hl|Hl]; [|reflexivity]. cbn in Hl.
      assert (E : contents (kc s) = []). { rewrite (y_len s H) in Hl. destruct (contents (kc s)); [reflexivity|cbn in Hl; lia]. }
      destruct (y_nil s H E) as [E2 _]. rewrite E2 in En. discriminate.
    Qed.
    Lemma y_update it (s : SKL) : KShape s -> some it && many (contents (kc s) ++ it) = false -> skl_update klt kf it s = skl_update klt' kf it s.
    Proof.
      intros H E. destruct it as [|v it]; [apply y_update_none; exact H|]. cbn [some is_nil negb] in E. rewrite andb_true_l in E.
      apply many_false in E. rewrite app_length in E. cbn [length] in E.
      apply y_update_nil; [|cbn [length]; lia]. apply (y_nil s H). destruct (contents (kc s)); [reflexivity|cbn in E; lia].
    Qed.
    Lemma y_new it : length it <= 1 -> skl_new klt kf dflt it = skl_new klt' kf dflt it.
    Proof. intros H. unfold skl_new. rewrite (y_update_nil it (skl_empty dflt) Logic.eq_refl H). reflexivity. Qed.
    Lemma y_add v (s : SKL) : maxes (kc s) = [] -> skl_add klt kf v s = skl_add klt' kf v s.
    Proof. intros Hm. unfold skl_add, bind, get, liftr, total1. rewrite Hm. reflexivity. Qed.
    Lemma y_delslice sl (s : SKL) : KShape s -> list_compares (LDelSlice sl) (contents (kc s)) = false ->
      delitem_slice (skl_vt klt kf) sl s = delitem_slice (skl_vt klt' kf) sl s.
    Proof.
      intros H E.
      destruct (o_delslice _ _ _ _ KShape _ (skl_vt_ok klt kf : VtOK (mkvt (@kc V K) set_kc skl_clear (skl_update klt kf) skl_delete) KShape)
        (fun s => ex_intro _ _ Logic.eq_refl) sl s H) as [[_ G]|(s1 & s2 & rest & _ & Hs2 & Em & G)].
      - unfold skl_vt. rewrite (G (skl_update klt' kf)). reflexivity.
      - unfold skl_vt. rewrite (G (skl_update klt kf)), (G (skl_update klt' kf)). injection Hs2 as <-. rewrite E in Em. symmetry in Em. apply many_false in Em.
        apply y_update_nil; [reflexivity|exact Em].
    Qed.
    Lemma y_find v (s : SKL) : maxes (kc s) = [] -> skl_find eq klt keq kf v s = skl_find eq' klt' keq' kf v s.
    Proof. intros Hm. unfold skl_find, bind, get. rewrite Hm. reflexivity. Qed.
    Lemma y_quiet o (s : SKL) : KShape s -> keylist_compares o (contents (kc s)) = false ->
      skl_step vlt eq klt keq kf dflt o s = skl_step vlt' eq' klt' keq' kf dflt o s.
    Proof.
      intros H E.
      assert (HN : some (contents (kc s)) = false -> maxes (kc s) = []) by (intros G; apply (y_nil s H), some_false, G).
      assert (HI : forall mn mx a b r, some (contents (kc s)) && (is_given mn || is_given mx) = false ->
        skl_irange_key klt mn mx a b r s = skl_irange_key klt' mn mx a b r s).
      { intros mn mx a b r G. unfold skl_irange_key. rewrite !o_bind_get. cbv zeta. destruct (is_nil (maxes (kc s))) eqn:En; [reflexivity|].
        apply andb_false_iff in G as [G|G]; [rewrite (HN G) in En; discriminate|]. destruct mn, mx; try discriminate. reflexivity. }
      destruct o as [o|k|k|mn mx a b r]; cbn [keylist_compares] in E.
      2,3: cbn [skl_step]; unfold observe, skl_bisect_key_left, skl_bisect_key_right, bind, get; rewrite (HN E); reflexivity.
      2:{ cbn [skl_step]. unfold observe. rewrite (HI _ _ a b r E). reflexivity. }
      destruct o;
        try lazymatch type of E with list_compares ?o _ = _ =>
          lazymatch o with LClear => reflexivity | LGet _ => reflexivity | LSlice _ => reflexivity | LDel _ => reflexivity | LPop _ => reflexivity | LLen => reflexivity | LIter => reflexivity | LReversed => reflexivity | LISlice _ _ _ => reflexivity | LUnsupported => reflexivity end end;
        cbn [skl_step skl_lstep]; try (unfold observe; rewrite (y_delslice sl s H E); reflexivity); unfold observe, rebind; cbn [list_compares] in E;
        try (specialize (HN E)).
      - rewrite (y_add v s HN). reflexivity.
      - rewrite (y_update it s H E). reflexivity.
      - unfold skl_discard, bind. rewrite (y_find v s HN). reflexivity.
      - unfold skl_remove, bind. rewrite (y_find v s HN). reflexivity.
      - unfold skl_contains, bind. rewrite (y_find v s HN). reflexivity.
      - unfold skl_bisect_left, skl_bisect_key_left, bind, get, liftr, total1. rewrite HN. reflexivity.
      - unfold skl_bisect_right, skl_bisect_key_right, bind, get, liftr, total1. rewrite HN. reflexivity.
      - unfold skl_count, bind, get. rewrite HN. reflexivity.
      - unfold skl_index. rewrite !o_bind_get. destruct (len (kc s) =? 0) eqn:En; [reflexivity|]. cbv zeta.
        cbv zeta in E. rewrite o_window in E by lia. rewrite <- (y_len s H) in E. apply negb_false_iff in E. rewrite E. reflexivity.
      - unfold skl_irange, bind, liftr. destruct mn as [x|], mx as [y|]; cbn [key_opt rbind total1]; cbn [is_given orb] in E; rewrite HI by exact E; reflexivity.
      - unfold reset, oncore, zoom, bind, get. cbn [vt_get vt_put vt_clear vt_update skl_vt]. unfold skl_clear, modify. cbn [kc set_kc keys].
        apply many_false in E. rewrite (y_update_nil (contents (kc s))); [reflexivity|reflexivity|exact E].
      - unfold iadd. cbn [vt_update skl_vt]. rewrite (y_update it s H E). reflexivity.
      - unfold imul, oncore, zoom, bind, get. cbn [vt_get vt_put vt_clear vt_update skl_vt]. unfold skl_clear, modify.
        apply many_false in E. rewrite (y_update_nil (list_mul (contents (kc s)) n)); [reflexivity|reflexivity|exact E].
      - unfold skl_copy, bind, get, liftr. apply many_false in E. fold (contents (kc s)). rewrite (y_new _ E). reflexivity.
      - unfold skl_plus, bind, get, liftr. apply many_false in E. rewrite (y_new _ E). reflexivity.
      - unfold skl_mul, bind, get, liftr. apply many_false in E. rewrite (y_new (list_mul (contents (kc s)) n) E). reflexivity.
      - unfold skl_reduce, bind, get, liftr. apply many_false in E. rewrite (y_new _ E). reflexivity.
      - unfold oncore, zoom. cbn [vt_get vt_put skl_vt]. unfold compare, bind, get, liftr, ret. rewrite (y_len s H). fold (contents (kc s)).
        destruct (length (contents (kc s)) =? length other) eqn:El.
        + cbn [negb andb orb] in *. rewrite andb_true_r in E. destruct (contents (kc s)), other; try discriminate; try reflexivity.
        + cbn [orb negb andb] in *. destruct op; try reflexivity; rewrite andb_true_r in E; destruct (contents (kc s)), other; try discriminate; reflexivity.
    Qed.
  End Quiet.

  Section Loud.
    Variables vlt eq : V -> V -> res bool.
    Variables klt keq : K -> K -> res bool.
    Variable dflt : nat.
    Variable e : exn.
    Hypothesis Hlt : forall x y, klt x y = Err e.
    Hypothesis Heq : forall x y, eq x y = Err e.
    Notation raises m s := (exists s', m s = (Err e, s')).
    Lemma yr_sorted it (s : SKL) : 2 <= length it -> raises (skl_update klt kf it) s.
    Proof. intros H. unfold skl_update. rewrite (sorted_key_raise klt key e it Hlt H). eexists. reflexivity. Qed.
    Lemma yr_new it : 2 <= length it -> skl_new klt kf dflt it = Err e.
    Proof. intros H. unfold skl_new. destruct (yr_sorted it (skl_empty dflt) H) as [s' ->]. reflexivity. Qed.
    Lemma yr_add v (s : SKL) : KShape s -> contents (kc s) <> [] -> raises (skl_add klt kf v) s.
    Proof. intros H E. destruct (y_some s H E) as [Hm En]. unfold skl_add, bind, get, liftr, total1. rewrite En, (bisect_right_raise klt e Hlt _ (key v) Hm). eexists. reflexivity. Qed.
    Lemma yr_find v (s : SKL) : KShape s -> contents (kc s) <> [] -> skl_find eq klt keq kf v s = (Err e, s).
    Proof. intros H E. destruct (y_some s H E) as [Hm En]. unfold skl_find, bind, get, liftr, total1. rewrite En, (bisect_left_raise klt e Hlt _ (key v) Hm). reflexivity. Qed.
    Lemma yr_remove v (s : SKL) : KShape s -> contents (kc s) <> [] -> raises (skl_remove eq klt keq kf v) s.
    Proof. intros H E. unfold skl_remove, bind. rewrite (yr_find v s H E). eexists. reflexivity. Qed.
    Lemma yr_update it (s : SKL) : KShape s -> some it && many (contents (kc s) ++ it) = true -> raises (skl_update klt kf it) s.
    Proof.
      intros H E. apply andb_true_iff in E as [E1 E2]. apply many_true in E2. rewrite app_length in E2.
      destruct (Nat.le_gt_cases 2 (length it)) as [Hi|Hi]; [apply yr_sorted; exact Hi|].
      destruct it as [|v [|w it]]; [discriminate| |cbn in Hi; lia]. cbn [length] in E2.
      assert (E : contents (kc s) <> []) by (intros E; rewrite E in E2; cbn in E2; lia). destruct (y_some s H E) as [Hm En].
      unfold skl_update. rewrite sorted_key_few by (cbn; lia). unfold bind at 1. cbn [liftr]. rewrite o_bind_get, En.
      destruct (len (kc s) <=? length [v] * 4).
      - unfold bind, modify, get, liftr, on_kc, set_lists. cbn [kc lists]. rewrite sorted_key_raise with (e := e); [eexists; reflexivity|exact Hlt|].
        rewrite concat_app, app_length. cbn. fold (contents (kc s)). lia.
      - cbn [forM]. destruct (yr_add v s H E) as [s' Es]. unfold bind. rewrite Es. eexists. reflexivity.
    Qed.
    Lemma yr_delslice sl (s : SKL) : KShape s -> list_compares (LDelSlice sl) (contents (kc s)) = true -> raises (delitem_slice (skl_vt klt kf) sl) s.
    Proof.
      intros H E.
      destruct (o_delslice _ _ _ _ KShape _ (skl_vt_ok klt kf : VtOK (mkvt (@kc V K) set_kc skl_clear (skl_update klt kf) skl_delete) KShape)
        (fun s => ex_intro _ _ Logic.eq_refl) sl s H) as [[E2 _]|(s1 & s2 & rest & _ & Hs2 & Em & G)]; [congruence|].
      unfold skl_vt. rewrite (G (skl_update klt kf)). apply yr_sorted, many_true. congruence.
    Qed.
    Lemma y_loud o (s : SKL) : KShape s -> keylist_compares o (contents (kc s)) = true -> fst (skl_step vlt eq klt keq kf dflt o s) = RExn e.
    Proof.
      intros H E.
      assert (HN : some (contents (kc s)) = true -> maxes (kc s) <> [] /\ is_nil (maxes (kc s)) = false) by (intros G; apply (y_some s H), some_true, G).
      assert (HI : forall mn mx a b r, some (contents (kc s)) && (is_given mn || is_given mx) = true ->
        skl_irange_key klt mn mx a b r s = (Err e, s)).
      { intros mn mx a b r G. apply andb_true_iff in G as [E1 E2]. destruct (HN E1) as [Hm En]. unfold skl_irange_key. rewrite o_bind_get. cbv zeta. rewrite En.
        destruct mn as [k|].
        + unfold bind, liftr. destruct a; [rewrite (bisect_left_raise klt e Hlt _ k Hm)|rewrite (bisect_right_raise klt e Hlt _ k Hm)]; reflexivity.
        + destruct mx as [k|]; [|discriminate]. unfold bind, ret, liftr.
          destruct b; [rewrite (bisect_right_raise klt e Hlt _ k Hm)|rewrite (bisect_left_raise klt e Hlt _ k Hm)]; reflexivity. }
      assert (HL : forall k, some (contents (kc s)) = true -> skl_bisect_key_left klt kf k s = (Err e, s)).
      { intros k G. destruct (HN G) as [Hm En]. unfold skl_bisect_key_left, bind, get, liftr. rewrite En, (bisect_left_raise klt e Hlt _ k Hm). reflexivity. }
      assert (HR : forall k, some (contents (kc s)) = true -> skl_bisect_key_right klt kf k s = (Err e, s)).
      { intros k G. destruct (HN G) as [Hm En]. unfold skl_bisect_key_right, bind, get, liftr. rewrite En, (bisect_right_raise klt e Hlt _ k Hm). reflexivity. }
      destruct o as [o|k|k|mn mx a b r]; cbn [keylist_compares] in E.
      2: cbn [skl_step]; unfold observe; rewrite (HL k E); reflexivity.
      2: cbn [skl_step]; unfold observe; rewrite (HR k E); reflexivity.
      2: cbn [skl_step]; unfold observe; rewrite (HI _ _ a b r E); reflexivity.
      destruct o; try discriminate; cbn [skl_step skl_lstep]; try (unfold observe; destruct (yr_delslice sl s H E) as [s' ->]; reflexivity); unfold observe, rebind; cbn [list_compares] in E;
        try (destruct (HN E) as [Hm En]).
      - destruct (yr_add v s H (some_true _ E)) as [s' ->]. reflexivity.
      - destruct (yr_update it s H E) as [s' ->]. reflexivity.
      - unfold skl_discard, bind. rewrite (yr_find v s H (some_true _ E)). reflexivity.
      - destruct (yr_remove v s H (some_true _ E)) as [s' ->]. reflexivity.
      - unfold skl_contains, bind. rewrite (yr_find v s H (some_true _ E)). reflexivity.
      - unfold skl_bisect_left, bind, liftr, total1. fold kf. rewrite (HL _ E). reflexivity.
      - unfold skl_bisect_right, bind, liftr, total1. fold kf. rewrite (HR _ E). reflexivity.
      - unfold skl_count, bind, get, liftr, total1. rewrite En, (bisect_left_raise klt e Hlt _ (key v) Hm). reflexivity.
      - unfold skl_index. rewrite !o_bind_get. cbv zeta in E. rewrite o_window in E by lia. rewrite <- (y_len s H) in E. apply negb_true_iff in E.
        assert (Hn : contents (kc s) <> []).
        { intros G. rewrite (y_len s H), G in E. cbn in E. unfold index_start, index_stop in E. cbv zeta in E. apply Z.leb_gt in E.
          revert E. repeat match goal with |- context [if (?x <? ?y)%Z then _ else _] => destruct (Z.ltb_spec x y) end; lia. }
        destruct (y_some s H Hn) as [Hm En]. cbv zeta. rewrite E.
        destruct (Nat.eqb_spec (len (kc s)) 0) as [Ez|Ez].
        { rewrite (y_len s H) in Ez. destruct (contents (kc s)); [congruence|discriminate]. }
        unfold bind, liftr, total1. rewrite (bisect_left_raise klt e Hlt _ (key v) Hm). reflexivity.
      - unfold skl_irange, bind, liftr. destruct mn as [x|], mx as [y|]; cbn [key_opt rbind total1]; cbn [is_given orb] in E; rewrite HI by exact E; reflexivity.
      - unfold reset, oncore, zoom, bind, get. cbn [vt_get vt_put vt_clear vt_update skl_vt]. unfold skl_clear, modify.
        match goal with |- context [skl_update klt kf ?l ?s] => destruct (yr_sorted l s (proj1 (many_true _) E)) as [s' ->] end. reflexivity.
      - unfold iadd. cbn [vt_update skl_vt]. destruct (yr_update it s H E) as [s' ->]. reflexivity.
      - unfold imul, oncore, zoom, bind, get. cbn [vt_get vt_put vt_clear vt_update skl_vt]. unfold skl_clear, modify.
        match goal with |- context [skl_update klt kf ?l ?s] => destruct (yr_sorted l s (proj1 (many_true _) E)) as [s' ->] end. reflexivity.
      - unfold skl_copy, bind, get, liftr. fold (contents (kc s)). rewrite yr_new by (apply many_true; exact E). reflexivity.
      - unfold skl_plus, bind, get, liftr. rewrite yr_new by (apply many_true; exact E). reflexivity.
      - unfold skl_mul, bind, get, liftr. rewrite yr_new by (apply many_true; exact E). reflexivity.
      - unfold skl_reduce, bind, get, liftr. rewrite yr_new by (apply many_true; exact E). reflexivity.
      - unfold oncore, zoom. cbn [vt_get vt_put skl_vt]. unfold compare, bind, get, liftr, ret. rewrite (y_len s H). fold (contents (kc s)).
        apply andb_true_iff in E as [E1 E2]. destruct (contents (kc s)) as [|x l], other as [|y l']; try discriminate.
        destruct (length (x :: l) =? length (y :: l')) eqn:El; cbn [negb andb orb] in *.
        + cbn [cmp_loop]. rewrite Heq. reflexivity.
        + destruct op; try discriminate; cbn [cmp_loop]; rewrite Heq; reflexivity.
    Qed.
  End Loud.
End Keyed.

(** * C120, C121: proofs *)
From Coq Require Import Permutation Sorted.
From Verif Require Import PyBase BaseFacts Model BalanceFacts ModelReentry ReentrySpec ReentryFacts.
Local Unset Implicit Arguments.

Lemma added_inv {W V} load (s : W * robj V) : 1 <= load -> added load s -> InvW [] (snd s).
Proof.
  intros L H. induction H as [w|lt depth v s r s' H IH A E|i s r s' H IH E].
  - split; cbn; [reflexivity|reflexivity|constructor|constructor|reflexivity|exact L|left; reflexivity].
  - apply (add_fine lt A depth v s r s' IH E).
  - unfold on_body, on_obj, zoom in E. pose proof (calm_item i (body (snd s)) (i_patch _ _ IH)) as (C1 & C2 & C3 & C4 & C5).
    destruct (getitem_int i (body (snd s))) as [r1 c1]. injection E as <- <-. cbn [snd] in *.
    destruct IH as [h1 h2 h3 h4 h5 h6 h7]. split; cbn; rewrite ?C2, ?C3, ?C4, ?C5; try assumption; exact h4.
Qed.
Lemma inv_holds {V} (o : robj V) : InvW [] o -> holds_added o.
Proof. intros [h1 h2 h3 h4 h5 h6 h7]. repeat split; assumption. Qed.

Lemma c120_list : forall W V load (s : W * robj V), 1 <= load -> added load s ->
  holds_added (snd s) /\
  forall (lt : V -> V -> code W V bool) depth v r s', (forall x y, adds_only (lt x y)) -> r_add lt depth v s = (r, s') ->
    holds_added (snd s') /\
    (exists l, done (snd s') = (match r with Ok _ => [v] | Err _ => [] end) ++ l ++ done (snd s) /\
       forall x, In x l -> exists a b, may_add (lt a b) x) /\
    forall e, r = Err e -> e = IndexError \/ e = OutOfFuel \/ exists a b, may_throw (lt a b) e.
Proof.
  intros W V load s L H. pose proof (added_inv load s L H) as I. split; [apply inv_holds; exact I|].
  intros lt depth v r s' A E. destruct (add_fine lt A depth v s r s' I E) as (I' & _ & (l & B1 & B2) & B3).
  split; [apply inv_holds; exact I'|]. split; [|exact B3]. exists l. split; [exact B1|]. apply Forall_forall. exact B2.
Qed.

(** ** Without calls of the list: the model of all other properties *)
Section Same.
  Context {W V : Type}.
  Notation RS := (W * robj V)%type.
  Variable lt : V -> V -> res bool.
  Lemma bisect_same (cmp : V -> V -> M RS bool) (read : robj V -> list V) (s : RS) : (forall x y, cmp x y s = (lt x y, s)) ->
    forall fuel x lo hi, r_bisect cmp read fuel x lo hi s = (bisect_right_loop lt fuel (read (snd s)) x lo hi, s).
  Proof.
    intros C. induction fuel as [|n IH]; intros x lo hi; cbn [r_bisect bisect_right_loop]; [reflexivity|].
    destruct (lo <? hi); [|reflexivity]. cbv zeta. unfold bind, get, liftr. destruct (getn _ _) as [y|e]; [|reflexivity]. cbn [rbind].
    rewrite C. destruct (lt x y) as [[]|e]; [| |reflexivity]; apply IH.
  Qed.
  Lemma find_nth j pos : forall is (ls : list (list V)), NoDup is -> getn is pos = Ok j -> length is = length ls ->
    exists l, getn ls pos = Ok l /\ find_id j is ls = Some l /\ forall f, updn ls pos (fun l => Ok (f l)) = Ok (put_id j f is ls).
  Proof.
    induction pos as [|pos IH]; intros [|i is] [|l ls] N G L; cbn in *; try discriminate.
    - injection G as ->. rewrite Nat.eqb_refl. eexists. split; [reflexivity|]. split; reflexivity.
    - apply NoDup_cons_iff in N as [N1 N2]. unfold getn in *. cbn in *.
      destruct (nth_error is pos) as [j'|] eqn:En; [|discriminate]. injection G as ->.
      destruct (Nat.eqb_spec i j) as [->|_]; [exfalso; apply N1; eapply nth_error_In; exact En|].
      destruct (IH is ls N2) as (l' & A & B & D); [rewrite En; reflexivity|lia|]. exists l'. split; [exact A|]. split; [exact B|].
      intros f. rewrite D. reflexivity.
  Qed.
  Lemma expand_same pos (o : robj V) : numbered o ->
    exists o', r_expand pos o = (fst (sl_expand pos (body o)), o') /\ body o' = snd (sl_expand pos (body o)) /\ numbered o'.
  Proof.
    intros (N1 & N2 & N3). unfold r_expand, sl_expand, modifyR. destruct (getn (lists (body o)) pos) as [l|e] eqn:G; cbn [rbind].
    2:{ cbn [fst snd]. rewrite Nat.eqb_refl. eexists. split; [reflexivity|]. split; [reflexivity|]. repeat split; assumption. }
    assert (P : pos < length (lists (body o))).
    { unfold getn in G. destruct (nth_error _ _) eqn:E; [|discriminate]. apply nth_error_Some. congruence. }
    destruct (load (body o) * 2 <? length l).
    - destruct (setn (lists (body o)) pos _) as [ls|e] eqn:E1; cbn [rbind].
      2:{ cbn [fst snd]. rewrite Nat.eqb_refl. eexists. split; [reflexivity|]. split; [reflexivity|]. repeat split; assumption. }
      destruct (getlast _) as [m|e]; cbn [rbind].
      2:{ cbn [fst snd]. rewrite Nat.eqb_refl. eexists. split; [reflexivity|]. split; [reflexivity|]. repeat split; assumption. }
      destruct (setn (maxes (body o)) pos m) as [ms|e]; cbn [rbind].
      2:{ cbn [fst snd]. rewrite Nat.eqb_refl. eexists. split; [reflexivity|]. split; [reflexivity|]. repeat split; assumption. }
      destruct (getlast _) as [hm|e]; cbn [rbind].
      2:{ cbn [fst snd]. rewrite Nat.eqb_refl. eexists. split; [reflexivity|]. split; [reflexivity|]. repeat split; assumption. }
      cbn [fst snd lists set_lists set_maxes set_index]. rewrite insn_len, (setn_len _ _ _ _ E1).
      destruct (Nat.eqb_spec (S (length (lists (body o)))) (length (lists (body o)))) as [Q|_]; [lia|].
      eexists. split; [reflexivity|]. split; [reflexivity|]. split; cbn [ids body lists set_lists set_maxes set_index fresh].
      + rewrite !insn_len, (setn_len _ _ _ _ E1), N1. reflexivity.
      + unfold insn. split.
        * eapply Permutation_NoDup; [apply Permutation_middle|]. rewrite firstn_skipn. constructor; [|exact N2].
          intros Q. rewrite Forall_forall in N3. apply N3 in Q. lia.
        * rewrite <- (firstn_skipn (pos + 1) (ids o)) in N3. apply Forall_app in N3 as [A B]. apply Forall_app. split.
          -- eapply Forall_impl; [|exact A]. intros a Ha. cbn in Ha. lia.
          -- constructor; [lia|]. eapply Forall_impl; [|exact B]. intros a Ha. cbn in Ha. lia.
    - destruct (index_inc (body o) pos) as [c'|e] eqn:Ei; cbn [fst snd].
      2:{ rewrite Nat.eqb_refl. eexists. split; [reflexivity|]. split; [reflexivity|]. repeat split; assumption. }
      assert (L : lists c' = lists (body o)).
      { unfold index_inc in Ei. destruct (is_nil _); [injection Ei as <-; reflexivity|]. destruct (index_walk _ _ _); cbn in Ei; [|discriminate]. injection Ei as <-. reflexivity. }
      rewrite L, Nat.eqb_refl. eexists. split; [reflexivity|]. split; [reflexivity|]. split; [cbn; rewrite L; exact N1|]. split; assumption.
  Qed.
End Same.

Lemma updn_insort_ids {V} (lt : V -> V -> res bool) (ls : list (list V)) pos l v : getn ls pos = Ok l ->
  updn ls pos (fun l => insort lt l v) = (let! i := bisect_right lt l v in updn ls pos (fun l => Ok (insn l i v))).
Proof.
  revert pos. induction ls as [|x ls IH]; intros [|pos] G; try discriminate; cbn [updn].
  - injection G as <-. unfold insort. destruct (bisect_right lt x v); reflexivity.
  - rewrite IH by exact G. destruct (bisect_right lt l v); reflexivity.
Qed.

Lemma c120_same : forall W V (lt : V -> V -> res bool) d v (w : W) (o : robj V), numbered o ->
  exists o', r_add (fun x y => told (lt x y)) (S d) v (w, o) = (fst (sl_add lt v (body o)), (w, o')) /\
    body o' = snd (sl_add lt v (body o)) /\ numbered o'.
Proof.
  intros W V lt d v w o N. pose proof N as (N1 & N2 & N3).
  cbn [r_add]. set (cmp := fun x y => run (r_add (fun x y => told (lt x y)) d) (told (lt x y))).
  assert (C : forall x y s, cmp x y s = (lt x y, s)) by (intros x y s; unfold cmp, told; destruct (lt x y); reflexivity).
  assert (B : forall read x o1, r_bisect_right cmp read x (w, o1) = (bisect_right lt (read o1) x, (w, o1))).
  { intros read x o1. unfold r_bisect_right, bind, get. rewrite bisect_same with (lt := lt) by (intros; apply C). reflexivity. }
  clearbody cmp. unfold sl_add.
  assert (F : forall (m : M (W * robj V) unit) (m' : M (core V V) unit),
    (exists o1, m (w, o) = (fst (m' (body o)), (w, o1)) /\ body o1 = snd (m' (body o)) /\ numbered o1) ->
    exists o', (m ;;; on_obj (modify (fun o => mkrobj (set_len (len (body o) + 1) (body o)) (ids o) (dead o) (fresh o) (v :: done o)))) (w, o) =
      (fst ((m' ;;; modify (fun c => set_len (len c + 1) c)) (body o)), (w, o')) /\
      body o' = snd ((m' ;;; modify (fun c => set_len (len c + 1) c)) (body o)) /\ numbered o').
  { intros m m' (o1 & E1 & E2 & E3). unfold bind. rewrite E1. destruct (m' (body o)) as [[[]|e] c1]; cbn [fst snd] in *.
    - eexists. split; [reflexivity|]. split; [cbn; rewrite E2; reflexivity|]. destruct E3 as (F1 & F2 & F3). repeat split; assumption.
    - eexists. split; [reflexivity|]. split; [exact E2|exact E3]. }
  unfold bind at 1, get at 1. unfold bind at 5, get at 3. cbn [snd].
  apply F. clear F. destruct (is_nil (maxes (body o))) eqn:Nil.
  - eexists. split; [reflexivity|]. split; [reflexivity|]. split; cbn.
    + rewrite !app_length, N1. reflexivity.
    + split.
      * eapply Permutation_NoDup; [apply Permutation_cons_append|]. constructor; [|exact N2]. intros Q. rewrite Forall_forall in N3. apply N3 in Q. lia.
      * apply Forall_app. split; [|constructor; [lia|constructor]]. eapply Forall_impl; [|exact N3]. intros a Ha. cbn in Ha. lia.
  - unfold bind, liftr, get. rewrite B. destruct (bisect_right lt (maxes (body o)) v) as [pos|e].
    2:{ exists o. auto. }
    cbn [snd]. cbv beta. destruct (pos =? length (maxes (body o))).
    + cbv zeta. unfold on_body, on_obj, zoom, modifyR. cbn [fst snd].
      destruct (updn (lists (body o)) (pos - 1) (fun l => Ok (l ++ [v]))) as [ls|e] eqn:E1; cbn [rbind].
      2:{ exists o. cbn [fst snd]. split; [destruct o; reflexivity|]. split; [reflexivity|exact N]. }
      cbn [fst snd body set_body maxes set_lists].
      destruct (setn (maxes (body o)) (pos - 1) v) as [ms|e] eqn:E2; cbn [rbind].
      2:{ eexists. split; [reflexivity|]. split; [reflexivity|]. split; [cbn; rewrite (updn_len _ _ _ _ E1); exact N1|]. split; assumption. }
      cbn [fst snd].
      match goal with |- context [r_expand _ ?o1] => set (o2 := o1) end.
      assert (M2 : numbered o2) by (unfold o2; split; [cbn; rewrite (updn_len _ _ _ _ E1); exact N1|split; assumption]).
      destruct (expand_same (pos - 1) o2 M2) as (o3 & E3 & E4 & E5). rewrite E3. exists o3. split; [reflexivity|]. split; [exact E4|exact E5].
    + destruct (getn (ids o) pos) as [j|e] eqn:Ej.
      2:{ exists o. unfold modifyR. unfold getn in Ej. destruct (nth_error (ids o) pos) eqn:En; [discriminate|]. injection Ej as <-.
          apply nth_error_None in En. rewrite N1 in En.
          assert (Q : updn (lists (body o)) pos (fun l => insort lt l v) = Err IndexError).
          { clear - En. revert pos En. induction (lists (body o)) as [|x ls IH]; intros [|pos] En; cbn in *; try reflexivity; [lia|]. rewrite IH by lia. reflexivity. }
          rewrite Q. cbn. auto. }
      destruct (find_nth j pos (ids o) (lists (body o)) N2 Ej N1) as (l & G & Fi & U).
      rewrite B. unfold modifyR. rewrite (updn_insort_ids lt _ _ _ _ G).
      unfold sub. rewrite Fi. destruct (bisect_right lt l v) as [idx|e]; cbn [rbind]; [|exists o; auto].
      rewrite U. cbn [rbind]. unfold on_obj, zoom, modify. cbn [fst snd].
      assert (M2 : numbered (insert_sub j idx v o)) by (split; [cbn; rewrite put_length; exact N1|split; assumption]).
      destruct (expand_same pos _ M2) as (o3 & E3 & E4 & E5). rewrite E3. exists o3. split; [reflexivity|]. split; [exact E4|exact E5].
Qed.

(** ** What does not hold *)
Lemma added_filled w load l : added load (filled w load l).
Proof.
  unfold filled. rewrite <- fold_left_rev_right. induction (rev l) as [|v t IH]; cbn [fold_right]; [constructor|].
  eapply added_add; [exact IH| |apply surjective_pairing]. intros x y. exact I.
Qed.
Lemma third_says m x y : (forall k, always_says k (x <? y) -> always_says (m k) (x <? y)) -> always_says (third m x y) (x <? y).
Proof. intros H w. destruct (w =? 2); [apply H|]; reflexivity. Qed.
Lemma third_adds m x y : (forall k, adds_only k -> adds_only (m k)) -> adds_only (third m x y).
Proof. intros H w. destruct (w =? 2); [apply H|]; exact I. Qed.

Lemma c121_sorted : ~ (forall load (s : nat * robj nat) lt depth v s', 1 <= load -> added load s -> StronglySorted le (concat (lists (body (snd s)))) ->
  (forall x y, adds_only (lt x y) /\ always_says (lt x y) (x <? y)) -> r_add lt depth v s = (Ok tt, s') ->
  StronglySorted le (concat (lists (body (snd s'))))).
Proof.
  intros H. set (lt := third (fun k => CAdd 3 (fun _ => k))). specialize (H 2 (filled 1 2 [10]) lt 2 5 (snd (r_add lt 2 5 (filled 1 2 [10]))) ltac:(lia) (added_filled _ _ _)).
  assert (Q : StronglySorted le [5; 3; 10]).
  { apply H; [vm_compute; repeat constructor| |vm_compute; reflexivity].
    intros x y. split; [apply third_adds; intros k Hk; cbn; auto|apply third_says; intros k Hk; cbn; auto]. }
  inversion Q as [|? ? _ F]. inversion F. lia.
Qed.

Lemma c121_index : ~ (forall load (s : nat * robj nat) lt depth v s', 1 <= load -> added load s -> StronglySorted le (concat (lists (body (snd s)))) ->
  (forall x y, adds_only (lt x y) /\ always_says (lt x y) (x <? y)) -> r_add lt depth v s = (Ok tt, s') ->
  forall i, i < len (body (snd s')) -> exists x, fst (on_body (getitem_int (Z.of_nat i)) s') = Ok x).
Proof.
  intros H. set (lt := third (fun k => CAdd 0 (fun _ => CItem 3%Z (fun _ => k)))). set (s := filled 0 2 [1; 2; 3; 4; 5; 0; 0]).
  specialize (H 2 s lt 2 4 (snd (r_add lt 2 4 s)) ltac:(lia) (added_filled _ _ _)).
  destruct (H ltac:(vm_compute; repeat constructor)) with (i := 5) as [x Q]; [|vm_compute; reflexivity|vm_compute; repeat constructor|vm_compute in Q; discriminate Q].
  intros x y. split; [apply third_adds; intros k Hk; cbn; auto|apply third_says; intros k Hk; cbn; auto].
Qed.

Lemma c121_lost : ~ (forall load (s : nat * robj nat) lt depth v s', 1 <= load -> added load s -> StronglySorted le (concat (lists (body (snd s)))) ->
  (forall x y, always_says (lt x y) (x <? y)) -> r_add lt depth v s = (Ok tt, s') ->
  In v (concat (lists (body (snd s')))) \/ len (body (snd s')) = length (concat (lists (body (snd s'))))).
Proof.
  intros H. set (lt := third (fun k => CDel 0%Z (fun _ => k))). set (s := filled 0 2 [1; 2; 5; 6; 9; 8]).
  specialize (H 2 s lt 2 7 (snd (r_add lt 2 7 s)) ltac:(lia) (added_filled _ _ _)).
  destruct H as [Q|Q]; [vm_compute; repeat constructor| |vm_compute; reflexivity|vm_compute in Q; repeat destruct Q as [Q|Q]; try discriminate Q; exact Q|vm_compute in Q; discriminate Q].
  intros x y. apply third_says. intros k Hk. cbn. auto.
Qed.

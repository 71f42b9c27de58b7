(** * Facts about the calls of Calls.v *)
From Verif Require Import PyBase Model Spec BaseFacts Shape ListSim Calls CallSpec.
Local Unset Implicit Arguments.

(** ** Leaving out the calls *)
Section Erase.
  Context {V S : Type}.
  Definition erase {A} (m : ML V S A) : M S A := fun s => snd (m s).
  Lemma erase_bind {A B} (m : ML V S A) (k : A -> ML V S B) (m0 : M S A) (k0 : A -> M S B) s :
    erase m s = m0 s -> (forall a s1, m0 s = (Ok a, s1) -> erase (k a) s1 = k0 a s1) -> erase (lbind m k) s = bind m0 k0 s.
  Proof.
    unfold erase, lbind, bind. intros H Hk. destruct (m s) as [l [[a|e] s1]]; cbn [snd] in *; rewrite <- H in *; [|reflexivity].
    rewrite <- (Hk a s1 eq_refl). destruct (k a s1); reflexivity.
  Qed.
End Erase.

(** ** Other comparisons that answer the same to the calls made *)
Section Agree.
  Context {V : Type}.
  Variables lt eq lt' eq' : V -> V -> res bool.
  Notation agree := (agree lt eq lt' eq').
  Definition stable {S A} (m m' : ML V S A) : Prop := forall s, agree (fst (m s)) -> m' s = m s.
  Lemma stable_bind {S A B} (m m' : ML V S A) (k k' : A -> ML V S B) :
    stable m m' -> (forall a, stable (k a) (k' a)) -> stable (lbind m k) (lbind m' k').
  Proof.
    intros H Hk s Ha. unfold lbind in *. specialize (H s). destruct (m s) as [l [[a|e] s1]]; cbn [fst] in *.
    - specialize (Hk a s1). destruct (k a s1) as [l2 r]. cbn [fst] in *.
      apply Forall_app in Ha. destruct Ha as [H1 H2]. rewrite (H H1), (Hk H2). reflexivity.
    - rewrite (H Ha). reflexivity.
  Qed.
  Lemma stable_quiet {S A} (m : M S A) : stable (quiet m) (quiet m).
  Proof. intros s _. reflexivity. Qed.
  Lemma stable_less {S} x y : stable (S:=S) (ask (Less x y) (lt x y)) (ask (Less x y) (lt' x y)).
  Proof. intros s H. inversion H; subst. unfold ask. congruence. Qed.
  Lemma stable_same {S} x y : stable (S:=S) (ask (Same x y) (eq x y)) (ask (Same x y) (eq' x y)).
  Proof. intros s H. inversion H; subst. unfold ask. congruence. Qed.
End Agree.

(** ** The number of calls *)
Definition calls {V S A} (m : ML V S A) (s : S) : nat := length (fst (m s)).
Lemma calls_quiet {V S A} (m : M S A) s : calls (quiet (V:=V) m) s = 0.
Proof. reflexivity. Qed.
Lemma calls_bind {V S A B} (m : ML V S A) (k : A -> ML V S B) s a b :
  calls m s <= a -> (forall x s1, snd (m s) = (Ok x, s1) -> calls (k x) s1 <= b) -> calls (lbind m k) s <= a + b.
Proof.
  unfold calls, lbind. intros H Hk. destruct (m s) as [l [[x|e] s1]]; cbn [fst snd] in *; [|lia].
  specialize (Hk x s1 eq_refl). destruct (k x s1); cbn [fst] in *. rewrite app_length. lia.
Qed.
Lemma calls_bind0 {V S A B} (m : M S A) (k : A -> ML V S B) s b :
  (forall x s1, m s = (Ok x, s1) -> calls (k x) s1 <= b) -> calls (lbind (quiet m) k) s <= b.
Proof. intros H. apply (calls_bind (quiet m) k s 0 b); [cbn; lia|exact H]. Qed.

(** Bisection of [n] values. *)
Definition halvings (n : nat) : nat := match n with 0 => 0 | _ => S (Nat.log2 n) end.
Lemma halvings_mono a b : a <= b -> halvings a <= halvings b.
Proof.
  intros H. destruct a, b; cbn [halvings]; try lia. pose proof (Nat.log2_le_mono (S a) (S b) H). lia.
Qed.
Lemma halvings_half n : 1 <= n -> halvings n = S (halvings (n / 2)).
Proof.
  intros H. destruct n as [|[|n]]; [lia|reflexivity|].
  assert (H2 : exists m, S (S n) / 2 = S m).
  { exists (pred (S (S n) / 2)). assert (1 <= S (S n) / 2) by (apply Nat.div_le_lower_bound; lia). lia. }
  destruct H2 as [m Hm]. cbn [halvings]. rewrite Hm. f_equal. cbn [halvings].
  rewrite <- Hm. rewrite <- Nat.div2_div. apply Nat.log2_spec_alt in H.
  apply Nat.log2_unique; [lia|].
  rewrite Nat.div2_div. pose proof (Nat.log2_spec (S (S n) / 2) ltac:(lia)) as [Ha Hb].
  pose proof (Nat.div_mod (S (S n)) 2 ltac:(lia)). pose proof (Nat.mod_upper_bound (S (S n)) 2 ltac:(lia)).
  rewrite !Nat.pow_succ_r' in *. lia.
Qed.

Section BisectCalls.
  Context {A : Type}.
  Lemma mid_bounds lo hi : lo < hi -> (lo + hi) / 2 - lo <= (hi - lo) / 2 /\ hi - S ((lo + hi) / 2) <= (hi - lo) / 2.
  Proof.
    intros H. pose proof (Nat.div_mod (lo + hi) 2 ltac:(lia)). pose proof (Nat.mod_upper_bound (lo + hi) 2 ltac:(lia)).
    pose proof (Nat.div_mod (hi - lo) 2 ltac:(lia)). pose proof (Nat.mod_upper_bound (hi - lo) 2 ltac:(lia)). lia.
  Qed.
  Lemma bisect_right_loop_calls {S} (lt : A -> A -> res bool) fuel a x lo hi (s : S) :
    calls (bisect_right_loop_log lt fuel a x lo hi) s <= halvings (hi - lo).
  Proof.
    revert lo hi s. induction fuel as [|f IH]; intros lo hi s; cbn [bisect_right_loop_log]; [cbn; lia|].
    destruct (lo <? hi) eqn:E; [apply Nat.ltb_lt in E|cbn; lia].
    rewrite (halvings_half (hi - lo)) by lia. destruct (mid_bounds lo hi E) as [H1 H2].
    apply calls_bind0. intros y s1 _. change (Datatypes.S (halvings ((hi - lo) / 2))) with (1 + halvings ((hi - lo) / 2)).
    apply calls_bind; [cbn; lia|]. intros [] s2 _; (etransitivity; [apply IH|apply halvings_mono; assumption]).
  Qed.
  Lemma bisect_left_loop_calls {S} (lt : A -> A -> res bool) fuel a x lo hi (s : S) :
    calls (bisect_left_loop_log lt fuel a x lo hi) s <= halvings (hi - lo).
  Proof.
    revert lo hi s. induction fuel as [|f IH]; intros lo hi s; cbn [bisect_left_loop_log]; [cbn; lia|].
    destruct (lo <? hi) eqn:E; [apply Nat.ltb_lt in E|cbn; lia].
    rewrite (halvings_half (hi - lo)) by lia. destruct (mid_bounds lo hi E) as [H1 H2].
    apply calls_bind0. intros y s1 _. change (Datatypes.S (halvings ((hi - lo) / 2))) with (1 + halvings ((hi - lo) / 2)).
    apply calls_bind; [cbn; lia|]. intros [] s2 _; (etransitivity; [apply IH|apply halvings_mono; assumption]).
  Qed.
  Lemma bisect_right_calls {S} (lt : A -> A -> res bool) a x (s : S) : calls (bisect_right_log lt a x) s <= halvings (length a).
  Proof. etransitivity; [apply bisect_right_loop_calls|]. rewrite Nat.sub_0_r. reflexivity. Qed.
  Lemma bisect_left_calls {S} (lt : A -> A -> res bool) a x (s : S) : calls (bisect_left_log lt a x) s <= halvings (length a).
  Proof. etransitivity; [apply bisect_left_loop_calls|]. rewrite Nat.sub_0_r. reflexivity. Qed.

  Lemma bisect_right_loop_erase {S} (lt : A -> A -> res bool) fuel a x lo hi (s : S) :
    erase (bisect_right_loop_log lt fuel a x lo hi) s = liftr (bisect_right_loop lt fuel a x lo hi) s.
  Proof.
    revert lo hi. induction fuel as [|f IH]; intros lo hi; cbn [bisect_right_loop_log bisect_right_loop]; [reflexivity|].
    destruct (lo <? hi); [|reflexivity]. unfold erase, lbind, quiet, ask, liftr in *.
    destruct (getn a ((lo + hi) / 2)) as [y|e]; cbn [rbind]; [|reflexivity].
    destruct (lt x y) as [[]|e]; cbn [rbind]; [| |reflexivity].
    - rewrite <- IH. destruct (bisect_right_loop_log lt f a x lo ((lo + hi) / 2) s); reflexivity.
    - rewrite <- IH. destruct (bisect_right_loop_log lt f a x _ hi s); reflexivity.
  Qed.
  Lemma bisect_left_loop_erase {S} (lt : A -> A -> res bool) fuel a x lo hi (s : S) :
    erase (bisect_left_loop_log lt fuel a x lo hi) s = liftr (bisect_left_loop lt fuel a x lo hi) s.
  Proof.
    revert lo hi. induction fuel as [|f IH]; intros lo hi; cbn [bisect_left_loop_log bisect_left_loop]; [reflexivity|].
    destruct (lo <? hi); [|reflexivity]. unfold erase, lbind, quiet, ask, liftr in *.
    destruct (getn a ((lo + hi) / 2)) as [y|e]; cbn [rbind]; [|reflexivity].
    destruct (lt y x) as [[]|e]; cbn [rbind]; [| |reflexivity].
    - rewrite <- IH. destruct (bisect_left_loop_log lt f a x _ hi s); reflexivity.
    - rewrite <- IH. destruct (bisect_left_loop_log lt f a x lo ((lo + hi) / 2) s); reflexivity.
  Qed.
  Lemma bisect_right_stable {S} (lt eq lt' eq' : A -> A -> res bool) a x :
    stable lt eq lt' eq' (S:=S) (bisect_right_log lt a x) (bisect_right_log lt' a x).
  Proof.
    unfold bisect_right_log.
    enough (H : forall f lo hi, stable lt eq lt' eq' (S:=S) (bisect_right_loop_log lt f a x lo hi) (bisect_right_loop_log lt' f a x lo hi))
      by apply H.
    intros f. induction f as [|f IH]; intros lo hi; cbn [bisect_right_loop_log].
    - apply stable_quiet.
    - destruct (lo <? hi); [|apply stable_quiet]. apply stable_bind; [apply stable_quiet|]. intros y.
      apply stable_bind; [apply stable_less|]. intros []; apply IH.
  Qed.
  Lemma bisect_left_stable {S} (lt eq lt' eq' : A -> A -> res bool) a x :
    stable lt eq lt' eq' (S:=S) (bisect_left_log lt a x) (bisect_left_log lt' a x).
  Proof.
    unfold bisect_left_log.
    enough (H : forall f lo hi, stable lt eq lt' eq' (S:=S) (bisect_left_loop_log lt f a x lo hi) (bisect_left_loop_log lt' f a x lo hi))
      by apply H.
    intros f. induction f as [|f IH]; intros lo hi; cbn [bisect_left_loop_log].
    - apply stable_quiet.
    - destruct (lo <? hi); [|apply stable_quiet]. apply stable_bind; [apply stable_quiet|]. intros y.
      apply stable_bind; [apply stable_less|]. intros []; apply IH.
  Qed.
End BisectCalls.

(** Every construct of the lookups, for each of the three questions. *)
Ltac erasing := repeat first
  [ reflexivity
  | match goal with |- erase (if ?b then _ else _) _ = _ => destruct b end
  | match goal with |- erase (let _ := _ in _) _ = _ => cbv zeta end
  | apply bisect_right_loop_erase
  | apply bisect_left_loop_erase
  | apply erase_bind; [|intros ? ? _] ].
Ltac steady := repeat first
  [ apply stable_quiet | apply stable_less | apply stable_same | apply bisect_right_stable | apply bisect_left_stable
  | match goal with |- stable _ _ _ _ (if ?b then _ else _) _ => destruct b end
  | apply stable_bind; [|intros ?] ].

(** ** SortedList *)
Section ListCalls.
  Context {V : Type}.
  Notation SL := (core V V).
  Section One.
  Variables lt eq : V -> V -> res bool.
  Lemma sl_contains_erase v (c : SL) : erase (sl_contains_log lt eq v) c = sl_contains lt eq v c.
  Proof. unfold sl_contains_log, sl_contains. erasing. Qed.
  Lemma sl_discard_erase v (c : SL) : erase (sl_discard_log lt eq v) c = sl_discard lt eq v c.
  Proof. unfold sl_discard_log, sl_discard. erasing. Qed.
  Lemma sl_remove_erase v (c : SL) : erase (sl_remove_log lt eq v) c = sl_remove lt eq v c.
  Proof. unfold sl_remove_log, sl_remove. erasing. Qed.
  Lemma sl_bisect_left_erase v (c : SL) : erase (sl_bisect_left_log lt v) c = sl_bisect_left lt v c.
  Proof. unfold sl_bisect_left_log, sl_bisect_left. erasing. Qed.
  Lemma sl_bisect_right_erase v (c : SL) : erase (sl_bisect_right_log lt v) c = sl_bisect_right lt v c.
  Proof. unfold sl_bisect_right_log, sl_bisect_right. erasing. Qed.
  Lemma sl_count_erase v (c : SL) : erase (sl_count_log lt v) c = sl_count lt v c.
  Proof. unfold sl_count_log, sl_count. erasing. Qed.
  Lemma sl_index_erase v a b (c : SL) : erase (sl_index_log lt eq v a b) c = sl_index lt eq v a b c.
  Proof.
    unfold sl_index_log, sl_index. apply erase_bind; [reflexivity|]. intros c1 s1 _.
    destruct (len c1 =? 0); [reflexivity|]. cbv zeta.
    match goal with |- context [if ?b then _ else _] => destruct b end; [reflexivity|]. erasing.
  Qed.
  Lemma updn_getn {X} (l : list X) i f : updn l i f = (let! x := getn l i in let! y := f x in updn l i (fun _ => Ok y)).
  Proof.
    revert i. induction l as [|x t IH]; intros [|i]; cbn [updn]; try reflexivity.
    - change (getn (x :: t) (S i)) with (getn t i). rewrite IH. destruct (getn t i) as [y|]; [|reflexivity]. cbn [rbind].
      destruct (f y); reflexivity.
  Qed.
  Lemma sl_add_erase v (c : SL) : erase (sl_add_log lt v) c = sl_add lt v c.
  Proof.
    unfold sl_add_log, sl_add. apply erase_bind; [reflexivity|]. intros c0 s0 H. injection H as <- <-.
    apply erase_bind; [|reflexivity].
    destruct (is_nil (maxes c)); [reflexivity|]. apply erase_bind; [apply bisect_right_loop_erase|]. intros pos s1 H. injection H as H <-.
    destruct (pos =? length (maxes c)); [reflexivity|].
    unfold erase, lbind, quiet, liftr, bind, modifyR. rewrite (updn_getn (lists c) pos (fun l => insort lt l v)). unfold insort.
    destruct (getn (lists c) pos) as [l|e] eqn:El; cbn [rbind]; [|reflexivity].
    pose proof (bisect_right_loop_erase lt (S (length l)) l v 0 (length l) c) as Hb. fold (bisect_right lt l v) in Hb. fold (bisect_right_log (S:=SL) lt l v) in Hb.
    unfold erase, liftr in Hb. destruct (bisect_right_log lt l v c) as [lg r]. cbn [snd] in Hb. subst r.
    destruct (bisect_right lt l v) as [i|e]; cbn [rbind]; [|reflexivity].
    rewrite (updn_getn (lists c) pos (fun l0 => Ok (insn l0 i v))), El. cbn [rbind].
    destruct (updn (lists c) pos _); reflexivity.
  Qed.
  End One.

  Section Two.
  Variables lt eq lt' eq' : V -> V -> res bool.
  Lemma sl_contains_stable v : stable lt eq lt' eq' (sl_contains_log lt eq v) (sl_contains_log lt' eq' v).
  Proof. unfold sl_contains_log. steady. Qed.
  Lemma sl_discard_stable v : stable lt eq lt' eq' (sl_discard_log lt eq v) (sl_discard_log lt' eq' v).
  Proof. unfold sl_discard_log. steady. Qed.
  Lemma sl_remove_stable v : stable lt eq lt' eq' (sl_remove_log lt eq v) (sl_remove_log lt' eq' v).
  Proof. unfold sl_remove_log. steady. Qed.
  Lemma sl_bisect_left_stable v : stable lt eq lt' eq' (sl_bisect_left_log lt v) (sl_bisect_left_log lt' v).
  Proof. unfold sl_bisect_left_log. steady. Qed.
  Lemma sl_bisect_right_stable v : stable lt eq lt' eq' (sl_bisect_right_log lt v) (sl_bisect_right_log lt' v).
  Proof. unfold sl_bisect_right_log. steady. Qed.
  Lemma sl_count_stable v : stable lt eq lt' eq' (sl_count_log lt v) (sl_count_log lt' v).
  Proof. unfold sl_count_log. steady. Qed.
  Lemma sl_index_stable v a b : stable lt eq lt' eq' (sl_index_log lt eq v a b) (sl_index_log lt' eq' v a b).
  Proof.
    unfold sl_index_log. apply stable_bind; [apply stable_quiet|]. intros c. destruct (len c =? 0); [apply stable_quiet|]. cbv zeta.
    match goal with |- context [if ?b then _ else _] => destruct b end; [apply stable_quiet|]. steady.
  Qed.
  Lemma sl_add_stable v : stable lt eq lt' eq' (sl_add_log lt v) (sl_add_log lt' v).
  Proof. unfold sl_add_log. steady. Qed.
  End Two.
End ListCalls.

(** ** Bounds *)
Lemma longest_bound {A} (ls : list (list A)) l : In l ls -> length l <= longest ls.
Proof.
  intros H. assert (HF : Forall (fun k => k <= longest ls) (map (@length A) ls)) by (apply list_max_le; reflexivity).
  rewrite Forall_forall in HF. apply HF. apply in_map. exact H.
Qed.
Lemma part_cost {A} (ls : list (list A)) pos l : getn ls pos = Ok l -> halvings (length l) <= 1 + Nat.log2 (longest ls).
Proof.
  unfold getn. destruct (nth_error ls pos) as [x|] eqn:E; [|discriminate]. intros H; injection H as <-.
  apply nth_error_In in E. apply longest_bound in E. destruct (length x) as [|n] eqn:En; cbn [halvings]; [lia|].
  pose proof (Nat.log2_le_mono _ _ E). lia.
Qed.
Lemma top_cost {A} (ms : list A) : is_nil ms = false -> halvings (length ms) = 1 + Nat.log2 (length ms).
Proof. destruct ms; [discriminate|reflexivity]. Qed.

Section LocKeeps.
  Context {V K : Type}.
  Lemma build_index_keeps (c : core V K) : lists (snd (build_index c)) = lists c /\ maxes (snd (build_index c)) = maxes c.
  Proof.
    unfold build_index, modifyR.
    repeat match goal with
    | |- context [if ?b then _ else _] => destruct b
    | |- context [getlast ?b] => destruct (getlast b)
    | |- context [build_index_sized ?a ?b ?c] => destruct (build_index_sized a b c)
    | |- _ /\ _ => split; reflexivity
    | _ => cbn [rbind snd]
    end.
  Qed.
  Lemma loc_keeps p i (c : core V K) : lists (snd (loc p i c)) = lists c /\ maxes (snd (loc p i c)) = maxes c.
  Proof.
    unfold loc. destruct (p =? 0); [split; reflexivity|]. unfold ensure_index, bind, get, liftr, ret.
    pose proof (build_index_keeps c) as H.
    destruct (is_nil (index c)).
    - destruct (build_index c) as [[[]|e] c1]; cbn [snd] in *; [|exact H]. destruct (loc_loop _ _ _ _); exact H.
    - destruct (loc_loop _ _ _ _); split; reflexivity.
  Qed.
End LocKeeps.

Section ListBounds.
  Context {V : Type}.
  Notation SL := (core V V).
  Variables lt eq : V -> V -> res bool.
  Definition width (c : SL) : nat := Nat.log2 (length (maxes c)) + Nat.log2 (longest (lists c)).
  (** The two bisections. *)
  Local Ltac start c :=
    apply calls_bind0; intros ? ? H; injection H as <- <-; destruct (is_nil (maxes c)) eqn:En; [cbn; lia|].
  Lemma two_left (c : SL) v n {A} (k : nat -> list V -> nat -> ML V SL A) (d : ML V SL A) s :
    is_nil (maxes c) = false -> calls d s <= 0 ->
    (forall pos l idx, getn (lists c) pos = Ok l -> calls (k pos l idx) s <= n) ->
    calls (lbind (bisect_left_log lt (maxes c) v) (fun pos =>
      if pos =? length (maxes c) then d else
      lbind (quiet (liftr (getn (lists c) pos))) (fun l =>
      lbind (bisect_left_log lt l v) (fun idx => k pos l idx)))) s <= width c + (2 + n).
  Proof.
    intros Hn Hd Hk. unfold width.
    apply Nat.le_trans with ((1 + Nat.log2 (length (maxes c))) + ((1 + Nat.log2 (longest (lists c))) + n)); [|lia].
    apply calls_bind.
    - rewrite <- top_cost by exact Hn. apply bisect_left_calls.
    - intros pos s1 H. assert (s1 = s) as ->.
      { pose proof (bisect_left_loop_erase lt (S (length (maxes c))) (maxes c) v 0 (length (maxes c)) s) as E.
        unfold erase in E. unfold bisect_left_log in H. rewrite E in H. unfold liftr in H. congruence. }
      destruct (pos =? length (maxes c)); [etransitivity; [exact Hd|lia]|].
      apply calls_bind0. intros l s1 H1. injection H1 as H1 <-. apply calls_bind.
      + etransitivity; [apply bisect_left_calls|]. eapply part_cost. exact H1.
      + intros idx s1 H2. assert (s1 = s) as ->; [|apply Hk; exact H1].
        pose proof (bisect_left_loop_erase lt (S (length l)) l v 0 (length l) s) as E.
        unfold erase in E. unfold bisect_left_log in H2. rewrite E in H2. unfold liftr in H2. congruence.
  Qed.
  Lemma two_right (c : SL) v n {A} (k : nat -> list V -> nat -> ML V SL A) (d : nat -> ML V SL A) s :
    is_nil (maxes c) = false -> (forall pos, calls (d pos) s <= 0) ->
    (forall pos l idx, getn (lists c) pos = Ok l -> calls (k pos l idx) s <= n) ->
    calls (lbind (bisect_right_log lt (maxes c) v) (fun pos =>
      if pos =? length (maxes c) then d pos else
      lbind (quiet (liftr (getn (lists c) pos))) (fun l =>
      lbind (bisect_right_log lt l v) (fun idx => k pos l idx)))) s <= width c + (2 + n).
  Proof.
    intros Hn Hd Hk. unfold width.
    apply Nat.le_trans with ((1 + Nat.log2 (length (maxes c))) + ((1 + Nat.log2 (longest (lists c))) + n)); [|lia].
    apply calls_bind.
    - rewrite <- top_cost by exact Hn. apply bisect_right_calls.
    - intros pos s1 H. assert (s1 = s) as ->.
      { pose proof (bisect_right_loop_erase lt (S (length (maxes c))) (maxes c) v 0 (length (maxes c)) s) as E.
        unfold erase in E. unfold bisect_right_log in H. rewrite E in H. unfold liftr in H. congruence. }
      destruct (pos =? length (maxes c)); [etransitivity; [apply Hd|lia]|].
      apply calls_bind0. intros l s1 H1. injection H1 as H1 <-. apply calls_bind.
      + etransitivity; [apply bisect_right_calls|]. eapply part_cost. exact H1.
      + intros idx s1 H2. assert (s1 = s) as ->; [|apply Hk; exact H1].
        pose proof (bisect_right_loop_erase lt (S (length l)) l v 0 (length l) s) as E.
        unfold erase in E. unfold bisect_right_log in H2. rewrite E in H2. unfold liftr in H2. congruence.
  Qed.

  Lemma sl_contains_calls v (c : SL) : calls (sl_contains_log lt eq v) c <= width c + 3.
  Proof.
    unfold sl_contains_log. start c. apply two_left with (n := 1); [exact En|cbn; lia|].
    intros pos l idx _. apply calls_bind0. intros. cbn. lia.
  Qed.
  Lemma sl_discard_calls v (c : SL) : calls (sl_discard_log lt eq v) c <= width c + 3.
  Proof.
    unfold sl_discard_log. start c. apply two_left with (n := 1); [exact En|cbn; lia|].
    intros pos l idx _. apply calls_bind0. intros x s1 _. apply (calls_bind _ _ _ 1 0); [cbn; lia|]. intros [] s2 _; cbn; lia.
  Qed.
  Lemma sl_remove_calls v (c : SL) : calls (sl_remove_log lt eq v) c <= width c + 3.
  Proof.
    unfold sl_remove_log. start c. apply two_left with (n := 1); [exact En|cbn; lia|].
    intros pos l idx _. apply calls_bind0. intros x s1 _. apply (calls_bind _ _ _ 1 0); [cbn; lia|]. intros [] s2 _; cbn; lia.
  Qed.
  Lemma sl_bisect_left_calls v (c : SL) : calls (sl_bisect_left_log lt v) c <= width c + 2.
  Proof. unfold sl_bisect_left_log. start c. apply two_left with (n := 0); [exact En|cbn; lia|intros; cbn; lia]. Qed.
  Lemma sl_bisect_right_calls v (c : SL) : calls (sl_bisect_right_log lt v) c <= width c + 2.
  Proof. unfold sl_bisect_right_log. start c. apply two_right with (n := 0); [exact En|cbn; lia|intros; cbn; lia]. Qed.
  Lemma sl_count_calls v (c : SL) : calls (sl_count_log lt v) c <= 2 * width c + 4.
  Proof.
    unfold sl_count_log. start c. replace (2 * width c + 4) with (width c + (2 + (width c + (2 + 0)))) by lia.
    apply two_left; [exact En|cbn; lia|]. intros pl l il _.
    apply two_right; [exact En| |].
    - intros pr. apply calls_bind0. intros. cbn. lia.
    - intros pr r ir _. destruct (pl =? pr); [cbn; lia|]. apply calls_bind0. intros. apply calls_bind0. intros. cbn. lia.
  Qed.
  Lemma sl_index_calls v a b (c : SL) : calls (sl_index_log lt eq v a b) c <= 2 * width c + 5.
  Proof.
    unfold sl_index_log. apply calls_bind0; intros ? ? H; injection H as <- <-.
    destruct (len c =? 0); [cbn; lia|]. cbv zeta. destruct (_ <=? _)%Z; [cbn; lia|].
    destruct (is_nil (maxes c)) eqn:En.
    { destruct (maxes c) as [|m0 ms0]; [|discriminate]. cbn. lia. }
    replace (2 * width c + 5) with (width c + (2 + (1 + (width c + 2)))) by lia.
    apply two_left; [exact En|cbn; lia|]. intros pl l il _. apply calls_bind0. intros x s1 H1. injection H1 as _ <-.
    apply calls_bind; [cbn; lia|]. intros e s1 H1. injection H1 as _ <-. destruct (negb e); [cbn; lia|].
    apply calls_bind0. intros left s1 H1. pose proof (loc_keeps pl il c) as [K1 K2]. rewrite H1 in K1, K2. cbn [snd] in K1, K2.
    destruct (_ <=? Z.of_nat left)%Z; [destruct (Z.of_nat left <=? _)%Z; cbn; lia|].
    replace (width c) with (width s1) by (unfold width; rewrite K1, K2; reflexivity).
    rewrite <- (Nat.add_0_r (width s1 + 2)). apply calls_bind; [apply sl_bisect_right_calls|].
    intros r s2 _. destruct (_ <=? _)%Z; cbn; lia.
  Qed.
  Lemma sl_add_calls v (c : SL) : calls (sl_add_log lt v) c <= width c + 2.
  Proof.
    unfold sl_add_log. apply calls_bind0; intros ? ? H; injection H as <- <-. rewrite <- (Nat.add_0_r (width c + 2)). apply calls_bind; [|intros; cbn; lia].
    destruct (is_nil (maxes c)) eqn:En; [cbn; lia|].
    apply (two_right c v 0 (fun pos l i => quiet (modifyR (fun c : SL =>
           let! ls := updn (lists c) pos (fun l => Ok (insn l i v)) in
           Ok (set_lists ls c)) ;;; sl_expand pos))); [exact En|cbn; lia|intros; cbn; lia].
  Qed.
End ListBounds.

(** ** In terms of the number of values *)
Lemma sum_below {A} (ls : list (list A)) k : Forall (fun l => k <= length l) ls -> k * length ls <= length (concat ls).
Proof. induction 1 as [|l t H _ IH]; cbn [length concat]; [lia|]. rewrite app_length. lia. Qed.
Lemma longest_le {A} (ls : list (list A)) k : Forall (fun l => length l <= k) ls -> longest ls <= k.
Proof.
  intros H. apply list_max_le. apply Forall_forall. intros n Hn. apply in_map_iff in Hn. destruct Hn as (l & <- & Hl).
  rewrite Forall_forall in H. apply H. exact Hl.
Qed.
Lemma width_bound {A} (ls : list (list A)) ld :
  1 <= ld -> Forall (fun l => 1 <= length l) ls -> SizesOK ld ls ->
  Nat.log2 (length ls) + Nat.log2 (longest ls) <= Nat.log2 (length (concat ls)) + 4.
Proof.
  intros Hld Hne [H1 H2]. destruct ls as [|a [|b t]].
  - cbn. lia.
  - cbn [concat length]. rewrite app_nil_r. unfold longest. cbn [map list_max fold_right]. rewrite Nat.max_0_r. change (Nat.log2 1) with 0. lia.
  - set (ls := a :: b :: t) in *. set (n := length (concat ls)).
    assert (Hm : 2 <= length ls) by (cbn; lia).
    assert (Hn : length ls <= n) by (unfold n; pose proof (sum_below ls 1 Hne); lia).
    assert (HL : longest ls <= 2 * ld) by (apply longest_le; exact H1).
    assert (Hn2 : (ld / 2) * (length ls - 1) <= n).
    { unfold n. assert (Hx : ls <> []) by discriminate. rewrite (app_removelast_last [] Hx) at 2.
      rewrite concat_app, app_length. pose proof (sum_below _ _ H2) as H3.
      assert (length (removelast ls) = length ls - 1).
      { rewrite (app_removelast_last [] Hx) at 2. rewrite app_length. cbn [length]. lia. }
      rewrite H in H3. lia. }
    assert (Hp : length ls * longest ls <= 16 * n).
    { destruct (Nat.eq_dec ld 1) as [->|Hd]; [nia|].
      assert (Hh : ld <= 3 * (ld / 2)).
      { pose proof (Nat.div_mod ld 2 ltac:(lia)). pose proof (Nat.mod_upper_bound ld 2 ltac:(lia)). lia. }
      assert (length ls * longest ls <= length ls * (2 * ld)) by (apply Nat.mul_le_mono_l; exact HL).
      assert (length ls * (2 * ld) <= (2 * (length ls - 1)) * (2 * (3 * (ld / 2)))) by (apply Nat.mul_le_mono; lia).
      nia. }
    assert (H0 : 1 <= longest ls).
    { etransitivity; [|apply (longest_bound ls a); left; reflexivity]. inversion Hne; assumption. }
    etransitivity; [apply Nat.log2_mul_below; lia|]. etransitivity; [apply Nat.log2_le_mono; exact Hp|].
    change 16 with (2 ^ 4). rewrite Nat.mul_comm, Nat.log2_mul_pow2 by lia. lia.
Qed.

Lemma lshape_width {V} (c : core V V) : LShape c ->
  length (maxes c) = length (lists c) /\ width c <= Nat.log2 (length (concat (lists c))) + 4.
Proof.
  intros (rows & H0 & _). pose proof (sh_lists _ _ _ H0) as El. pose proof (sh_maxes _ _ _ H0) as Em.
  pose proof (sh_rows _ _ _ H0) as Hr. cbn [embed kc] in *.
  assert (E : length (maxes c) = length (lists c)) by (rewrite El, Em, !map_length; reflexivity).
  split; [exact E|]. unfold width. rewrite E. apply width_bound with (ld := load c).
  - exact (sh_load _ _ _ H0).
  - rewrite El. apply Forall_map. eapply Forall_impl; [|exact Hr]. intros r. apply row_ok_ne.
  - rewrite El. exact (sh_sizes _ _ _ H0).
Qed.

(** ** SortedKeyList *)
Section KeyCalls.
  Context {V K : Type}.
  Notation SKL := (skl V K).
  Variable kf : V -> res K.
  Section One.
  Variable klt : K -> K -> res bool.
  Lemma skl_bisect_key_left_erase k (s : SKL) : erase (skl_bisect_key_left_log klt kf k) s = skl_bisect_key_left klt kf k s.
  Proof. unfold skl_bisect_key_left_log, skl_bisect_key_left. erasing. Qed.
  Lemma skl_bisect_key_right_erase k (s : SKL) : erase (skl_bisect_key_right_log klt kf k) s = skl_bisect_key_right klt kf k s.
  Proof. unfold skl_bisect_key_right_log, skl_bisect_key_right. erasing. Qed.
  Lemma skl_add_erase v (s : SKL) : erase (skl_add_log klt kf v) s = skl_add klt kf v s.
  Proof. unfold skl_add_log, skl_add. erasing. Qed.

  Definition kwidth (s : SKL) : nat := Nat.log2 (length (maxes (kc s))) + Nat.log2 (longest (keys s)).
  Lemma ktwo (right : bool) (c : SKL) v {A} (k : nat -> list K -> nat -> M SKL A) (d : nat -> M SKL A) s :
    is_nil (maxes (kc c)) = false ->
    calls (lbind (if right then bisect_right_log klt (maxes (kc c)) v else bisect_left_log klt (maxes (kc c)) v) (fun pos =>
      if pos =? length (maxes (kc c)) then quiet (d pos) else
      lbind (quiet (liftr (getn (keys c) pos))) (fun l =>
      lbind (if right then bisect_right_log klt l v else bisect_left_log klt l v) (fun idx => quiet (k pos l idx))))) s <= kwidth c + 2.
  Proof.
    intros Hn. unfold kwidth.
    apply Nat.le_trans with ((1 + Nat.log2 (length (maxes (kc c)))) + ((1 + Nat.log2 (longest (keys c))) + 0)); [|lia].
    apply calls_bind.
    - rewrite <- top_cost by exact Hn. destruct right; [apply bisect_right_calls|apply bisect_left_calls].
    - intros pos s1 _. destruct (pos =? length (maxes (kc c))); [cbn; lia|].
      apply calls_bind0. intros l s2 H1. injection H1 as H1 <-. apply calls_bind; [|intros; cbn; lia].
      etransitivity; [destruct right; [apply bisect_right_calls|apply bisect_left_calls]|]. eapply part_cost. exact H1.
  Qed.
  Lemma skl_bisect_key_left_calls k (s : SKL) : calls (skl_bisect_key_left_log klt kf k) s <= kwidth s + 2.
  Proof.
    unfold skl_bisect_key_left_log. apply calls_bind0; intros ? ? H; injection H as <- <-.
    destruct (is_nil (maxes (kc s))) eqn:En; [cbn; lia|]. apply (ktwo false); exact En.
  Qed.
  Lemma skl_bisect_key_right_calls k (s : SKL) : calls (skl_bisect_key_right_log klt kf k) s <= kwidth s + 2.
  Proof.
    unfold skl_bisect_key_right_log. apply calls_bind0; intros ? ? H; injection H as <- <-.
    destruct (is_nil (maxes (kc s))) eqn:En; [cbn; lia|]. apply (ktwo true s k (fun pos l idx => oncore (skl_vt klt kf) (loc pos idx)) (fun _ => ret (len (kc s)))); exact En.
  Qed.
  Lemma skl_add_calls v (s : SKL) : calls (skl_add_log klt kf v) s <= kwidth s + 2.
  Proof.
    unfold skl_add_log. apply calls_bind0. intros key s1 H1. injection H1 as _ <-.
    apply calls_bind0; intros ? ? H; injection H as <- <-. rewrite <- (Nat.add_0_r (kwidth s + 2)). apply calls_bind; [|intros; cbn; lia].
    destruct (is_nil (maxes (kc s))) eqn:En; [cbn; lia|].
    apply (ktwo true s key (fun pos l idx => modifyR (fun s =>
           let! ls := updn (lists (kc s)) pos (fun l => Ok (insn l idx v)) in
           Ok (on_kc (set_lists ls) s)) ;;;
         modifyR (fun s =>
           let! kss := updn (keys s) pos (fun l => Ok (insn l idx key)) in Ok (set_keys kss s)) ;;;
         skl_expand pos) (fun pos => modifyR (fun s =>
           let! ls := updn (lists (kc s)) (pos - 1) (fun l => Ok (l ++ [v])) in
           Ok (on_kc (set_lists ls) s)) ;;;
         modifyR (fun s =>
           let! kss := updn (keys s) (pos - 1) (fun l => Ok (l ++ [key])) in Ok (set_keys kss s)) ;;;
         modifyR (fun s =>
           let! ms := setn (maxes (kc s)) (pos - 1) key in Ok (on_kc (set_maxes ms) s)) ;;;
         skl_expand (pos - 1))). exact En.
  Qed.
  End One.
  Section Two.
  Variables klt keq klt' keq' : K -> K -> res bool.
  Lemma skl_bisect_key_left_stable k : stable klt keq klt' keq' (skl_bisect_key_left_log klt kf k) (skl_bisect_key_left_log klt' kf k).
  Proof. unfold skl_bisect_key_left_log. steady. Qed.
  Lemma skl_bisect_key_right_stable k : stable klt keq klt' keq' (skl_bisect_key_right_log klt kf k) (skl_bisect_key_right_log klt' kf k).
  Proof. unfold skl_bisect_key_right_log. steady. Qed.
  Lemma skl_add_stable v : stable klt keq klt' keq' (skl_add_log klt kf v) (skl_add_log klt' kf v).
  Proof. unfold skl_add_log. steady. Qed.
  End Two.
  Lemma shape_width (s : SKL) : Shape kf s -> kwidth s <= Nat.log2 (length (concat (lists (kc s)))) + 4.
  Proof.
    intros (rows & H0 & _). pose proof (sh_lists _ _ _ H0) as El. pose proof (sh_maxes _ _ _ H0) as Em.
    pose proof (sh_keys _ _ _ H0) as Ek. pose proof (sh_rows _ _ _ H0) as Hr.
    assert (E : length (maxes (kc s)) = length (lists (kc s))) by (rewrite El, Em, !map_length; reflexivity).
    assert (E2 : longest (keys s) = longest (lists (kc s))).
    { unfold longest. rewrite El, Ek, !map_map. f_equal. apply map_ext_in. intros r Hin.
      rewrite Forall_forall in Hr. apply (row_ok_len kf). apply Hr. exact Hin. }
    unfold kwidth. rewrite E, E2. apply width_bound with (ld := load (kc s)).
    - exact (sh_load _ _ _ H0).
    - rewrite El. apply Forall_map. eapply Forall_impl; [|exact Hr]. intros r. apply row_ok_ne.
    - rewrite El. exact (sh_sizes _ _ _ H0).
  Qed.
End KeyCalls.

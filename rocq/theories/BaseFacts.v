(** * Facts about the Python primitives of PyBase.v (proofs) *)
From Verif Require Import PyBase.
From Coq Require Import Sorting.Permutation Sorting.Sorted.
Local Unset Implicit Arguments.

Ltac inv H := inversion H; subst; clear H.

(** ** res *)
Lemma rbind_Ok {A B} (m : res A) (k : A -> res B) b :
  rbind m k = Ok b -> exists a, m = Ok a /\ k a = Ok b.
Proof. destruct m; cbn; [eauto|discriminate]. Qed.

Lemma mapR_app {A B} (f : A -> res B) l1 l2 :
  mapR f (l1 ++ l2) = let! a := mapR f l1 in let! b := mapR f l2 in Ok (a ++ b).
Proof.
  induction l1 as [|x l1 IH]; cbn [app mapR].
  - cbn. destruct (mapR f l2); reflexivity.
  - destruct (f x); cbn; [|reflexivity]. rewrite IH.
    destruct (mapR f l1); cbn; [|reflexivity]. destruct (mapR f l2); reflexivity.
Qed.

Lemma mapR_app_Ok {A B} (f : A -> res B) l1 l2 r1 r2 :
  mapR f l1 = Ok r1 -> mapR f l2 = Ok r2 -> mapR f (l1 ++ l2) = Ok (r1 ++ r2).
Proof. intros H1 H2. rewrite mapR_app, H1. cbn. rewrite H2. reflexivity. Qed.

Lemma mapR_cons_Ok {A B} (f : A -> res B) x l y r :
  f x = Ok y -> mapR f l = Ok r -> mapR f (x :: l) = Ok (y :: r).
Proof. intros H1 H2. cbn. rewrite H1. cbn. rewrite H2. reflexivity. Qed.

Lemma mapR_app_inv {A B} (f : A -> res B) l1 l2 r :
  mapR f (l1 ++ l2) = Ok r ->
  exists r1 r2, r = r1 ++ r2 /\ mapR f l1 = Ok r1 /\ mapR f l2 = Ok r2.
Proof.
  rewrite mapR_app. intros H. apply rbind_Ok in H as (a & Ha & H).
  apply rbind_Ok in H as (b & Hb & H). injection H as <-. eauto.
Qed.

Lemma mapR_cons_inv {A B} (f : A -> res B) x l r :
  mapR f (x :: l) = Ok r -> exists y t, r = y :: t /\ f x = Ok y /\ mapR f l = Ok t.
Proof.
  cbn. intros H. apply rbind_Ok in H as (a & Ha & H).
  apply rbind_Ok in H as (b & Hb & H). injection H as <-. eauto.
Qed.

Lemma mapR_length {A B} (f : A -> res B) l r : mapR f l = Ok r -> length r = length l.
Proof.
  revert r. induction l as [|x l IH]; intros r H; [injection H as <-; reflexivity|].
  apply mapR_cons_inv in H as (y & t & -> & _ & H). cbn. rewrite (IH _ H). reflexivity.
Qed.

Lemma mapR_map {A B} (f : A -> B) l : mapR (fun x => Ok (f x)) l = Ok (map f l).
Proof. induction l as [|x l IH]; cbn; [reflexivity|]. rewrite IH. reflexivity. Qed.

Lemma mapR_ext_in {A B} (f g : A -> res B) l :
  (forall x, In x l -> f x = g x) -> mapR f l = mapR g l.
Proof.
  intros H. induction l as [|x l IH]; cbn; [reflexivity|].
  rewrite H by (left; reflexivity). rewrite IH by (intros; apply H; right; assumption). reflexivity.
Qed.

Lemma mapR_firstn {A B} (f : A -> res B) n l r :
  mapR f l = Ok r -> mapR f (firstn n l) = Ok (firstn n r).
Proof.
  intros H. rewrite <- (firstn_skipn n l) in H.
  apply mapR_app_inv in H as (r1 & r2 & -> & H1 & H2).
  rewrite H1. f_equal. assert (Hl := mapR_length _ _ _ H1).
  rewrite firstn_length in Hl.
  destruct (Nat.le_ge_cases n (length l)) as [Hn|Hn].
  - replace n with (length r1) by lia. rewrite firstn_app, Nat.sub_diag, firstn_all.
    cbn. rewrite app_nil_r. reflexivity.
  - rewrite skipn_all2 in H2 by exact Hn. injection H2 as <-. rewrite app_nil_r.
    rewrite firstn_all2 by lia. reflexivity.
Qed.

Lemma mapR_skipn {A B} (f : A -> res B) n l r :
  mapR f l = Ok r -> mapR f (skipn n l) = Ok (skipn n r).
Proof.
  intros H. assert (H' := mapR_firstn f n l r H).
  rewrite <- (firstn_skipn n l) in H.
  apply mapR_app_inv in H as (r1 & r2 & -> & H1 & H2).
  rewrite H1 in H'. injection H' as H'. rewrite H2. f_equal.
  assert (Hl := mapR_length _ _ _ H1). rewrite firstn_length in Hl.
  destruct (Nat.le_ge_cases n (length l)) as [Hn|Hn].
  - replace n with (length r1) by lia. rewrite skipn_app, Nat.sub_diag, skipn_all. reflexivity.
  - rewrite skipn_all2 in H2 by exact Hn. injection H2 as <-. rewrite app_nil_r.
    rewrite skipn_all2 by lia. reflexivity.
Qed.

Lemma mapR_In {A B} (f : A -> res B) l r y :
  mapR f l = Ok r -> In y r -> exists x, In x l /\ f x = Ok y.
Proof.
  revert r. induction l as [|a l IH]; intros r H Hy; [injection H as <-; destruct Hy|].
  apply mapR_cons_inv in H as (b & t & -> & Hb & H). destruct Hy as [->|Hy].
  - exists a. split; [left; reflexivity|exact Hb].
  - destruct (IH _ H Hy) as (x & Hx & Hfx). exists x. split; [right; exact Hx|exact Hfx].
Qed.

Lemma mapR_all {A B} (f : A -> res B) l r x :
  mapR f l = Ok r -> In x l -> exists y, f x = Ok y.
Proof.
  revert r. induction l as [|a l IH]; intros r H Hx; [destruct Hx|].
  apply mapR_cons_inv in H as (b & t & -> & Hb & H). destruct Hx as [->|Hx]; eauto.
Qed.

Lemma mapR_exists {A B} (f : A -> res B) l :
  (forall x, In x l -> exists y, f x = Ok y) -> exists r, mapR f l = Ok r.
Proof.
  induction l as [|a l IH]; intros H; [eexists; reflexivity|].
  destruct (H a) as [y Hy]; [left; reflexivity|].
  destruct IH as [r Hr]; [intros; apply H; right; assumption|].
  cbn. rewrite Hy. cbn. rewrite Hr. cbn. eauto.
Qed.

Lemma mapR_perm {A B} (f : A -> res B) l l' r :
  Permutation l l' -> mapR f l = Ok r -> exists r', mapR f l' = Ok r'.
Proof.
  intros HP H. apply mapR_exists. intros x Hx.
  apply (mapR_all f l r); [exact H|]. eapply Permutation_in; [symmetry; exact HP|exact Hx].
Qed.

Lemma mapR_Ok_id {A} (l : list A) : mapR (fun x => Ok x) l = Ok l.
Proof. induction l as [|x l IH]; cbn; [reflexivity|]. rewrite IH. reflexivity. Qed.

Lemma mapR_rev {A B} (f : A -> res B) l r : mapR f l = Ok r -> mapR f (rev l) = Ok (rev r).
Proof.
  revert r. induction l as [|x l IH]; intros r H; [injection H as <-; reflexivity|].
  apply mapR_cons_inv in H as (y & t & -> & Hy & H). cbn [rev].
  apply mapR_app_Ok; [auto|]. cbn. rewrite Hy. reflexivity.
Qed.

(** ** List cells, by decomposition *)
Lemma getn_app {A} (a : list A) x b : getn (a ++ x :: b) (length a) = Ok x.
Proof. unfold getn. rewrite nth_error_app2, Nat.sub_diag by lia. reflexivity. Qed.

Lemma getn_app' {A} (a : list A) x b i : i = length a -> getn (a ++ x :: b) i = Ok x.
Proof. intros ->. apply getn_app. Qed.

Lemma getn_Ok {A} (l : list A) i x : getn l i = Ok x ->
  exists a b, l = a ++ x :: b /\ length a = i.
Proof.
  unfold getn. destruct (nth_error l i) eqn:H; [|discriminate]. intros H'. injection H' as ->.
  apply nth_error_split in H as (a & b & -> & <-). eauto.
Qed.

Lemma getn_lt {A} (l : list A) i : i < length l -> exists x, getn l i = Ok x.
Proof.
  intros H. unfold getn. destruct (nth_error l i) eqn:E; [eauto|].
  apply nth_error_None in E. lia.
Qed.

Lemma getn_Ok_lt {A} (l : list A) i x : getn l i = Ok x -> i < length l.
Proof. intros H. apply getn_Ok in H as (a & b & -> & <-). rewrite app_length. cbn. lia. Qed.

Lemma getn_out {A} (l : list A) i : length l <= i -> getn l i = Err IndexError.
Proof. intros H. unfold getn. apply nth_error_None in H. rewrite H. reflexivity. Qed.

Lemma split_at {A} (l : list A) i : i < length l -> exists a x b, l = a ++ x :: b /\ length a = i.
Proof.
  intros H. destruct (getn_lt l i H) as [x Hx]. apply getn_Ok in Hx as (a & b & -> & <-). eauto.
Qed.

Lemma updn_app {A} (a : list A) x b f :
  updn (a ++ x :: b) (length a) f = let! y := f x in Ok (a ++ y :: b).
Proof.
  induction a as [|z a IH]; cbn [app length updn]; [reflexivity|].
  rewrite IH. destruct (f x); reflexivity.
Qed.

Lemma setn_app {A} (a : list A) x b y : setn (a ++ x :: b) (length a) y = Ok (a ++ y :: b).
Proof. unfold setn. rewrite updn_app. reflexivity. Qed.

Lemma firstn_app_len {A} (a b : list A) : firstn (length a) (a ++ b) = a.
Proof. rewrite firstn_app, Nat.sub_diag, firstn_all. cbn. apply app_nil_r. Qed.
Lemma skipn_app_len {A} (a b : list A) : skipn (length a) (a ++ b) = b.
Proof. rewrite skipn_app, Nat.sub_diag, skipn_all. reflexivity. Qed.
Lemma skipn_S_app_len {A} (a : list A) x b : skipn (S (length a)) (a ++ x :: b) = b.
Proof.
  rewrite skipn_app, skipn_all2 by lia.
  replace (S (length a) - length a) with 1 by lia. reflexivity.
Qed.

Lemma deln_app {A} (a : list A) x b : deln (a ++ x :: b) (length a) = Ok (a ++ b).
Proof.
  unfold deln. destruct (Nat.ltb_spec (length a) (length (a ++ x :: b))) as [_|H].
  - rewrite firstn_app_len, skipn_S_app_len. reflexivity.
  - rewrite app_length in H. cbn in H. lia.
Qed.

Lemma insn_app {A} (a b : list A) x : insn (a ++ b) (length a) x = a ++ x :: b.
Proof. unfold insn. rewrite firstn_app_len, skipn_app_len. reflexivity. Qed.

Lemma insn_app_S {A} (a b : list A) x y :
  insn (a ++ x :: b) (length a + 1) y = a ++ x :: y :: b.
Proof.
  replace (length a + 1) with (length (a ++ [x])) by (rewrite app_length; reflexivity).
  replace (a ++ x :: b) with ((a ++ [x]) ++ b) by (rewrite <- app_assoc; reflexivity).
  rewrite insn_app, <- app_assoc. reflexivity.
Qed.

(** ** Last element *)
Lemma getz_nonneg {A} (l : list A) i : (0 <= i)%Z -> getz l i = getn l (Z.to_nat i).
Proof.
  intros H. unfold getz. destruct (Z.ltb_spec i 0); [lia|].
  destruct (Z.ltb_spec i 0); [lia|reflexivity].
Qed.

Lemma getz_neg {A} (l : list A) i : (i < 0)%Z ->
  getz l i = if (i + Z.of_nat (length l) <? 0)%Z then Err IndexError
             else getn l (Z.to_nat (i + Z.of_nat (length l))).
Proof. intros H. unfold getz. destruct (Z.ltb_spec i 0); [|lia]. reflexivity. Qed.

Lemma getlast_snoc {A} (a : list A) x : getlast (a ++ [x]) = Ok x.
Proof.
  unfold getlast. rewrite getz_neg by lia. rewrite app_length. cbn [length].
  destruct (Z.ltb_spec (-1 + Z.of_nat (length a + 1)) 0); [lia|].
  apply getn_app'. lia.
Qed.

Lemma getlast_nil {A} : getlast (@nil A) = Err IndexError.
Proof. reflexivity. Qed.

Lemma getlast_Ok {A} (l : list A) x : getlast l = Ok x -> exists a, l = a ++ [x].
Proof.
  destruct l as [|y l]; [discriminate|].
  destruct (exists_last (l := y :: l)) as (a & z & ->); [discriminate|].
  rewrite getlast_snoc. intros H. injection H as ->. eauto.
Qed.

Lemma getlast_ne {A} (l : list A) : l <> [] -> exists x, getlast l = Ok x.
Proof.
  intros H. destruct (exists_last H) as (a & z & ->). rewrite getlast_snoc. eauto.
Qed.

Lemma getlast_app {A} (a b : list A) : b <> [] -> getlast (a ++ b) = getlast b.
Proof.
  intros H. destruct (exists_last H) as (c & z & ->). rewrite app_assoc, !getlast_snoc. reflexivity.
Qed.

Lemma getlast_getn {A} (l : list A) : l <> [] -> getlast l = getn l (length l - 1).
Proof.
  intros H. destruct (exists_last H) as (c & z & ->). rewrite getlast_snoc, app_length. cbn [length].
  symmetry. apply getn_app'. lia.
Qed.

Lemma is_nil_spec {A} (l : list A) : is_nil l = true <-> l = [].
Proof. destruct l; cbn; split; congruence. Qed.

(** ** Binary search *)
Section BS.
  Context {A : Type}.
  (** The common form of both bisections: [p] answers "go left". *)
  Variable p : A -> res bool.
  Fixpoint bs_loop (fuel : nat) (a : list A) (lo hi : nat) : res nat :=
    match fuel with
    | O => Err OutOfFuel
    | S fuel' =>
        if lo <? hi then
          let mid := (lo + hi) / 2 in
          let! y := getn a mid in
          let! b := p y in
          if b then bs_loop fuel' a lo mid
          else bs_loop fuel' a (S mid) hi
        else Ok lo
    end.
  Definition bs (a : list A) : res nat := bs_loop (S (length a)) a 0 (length a).

  (** [bs] stops between an element where [p] is false and one where it is true. *)
  Definition Split (l1 l2 : list A) : Prop :=
    (forall x t, l2 = x :: t -> p x = Ok true) /\
    (forall t x, l1 = t ++ [x] -> p x = Ok false).

  Lemma bs_loop_Ok : forall fuel a lo hi n,
    lo <= hi -> hi <= length a ->
    (forall y, getn a hi = Ok y -> p y = Ok true) ->
    (forall y, 0 < lo -> getn a (lo - 1) = Ok y -> p y = Ok false) ->
    bs_loop fuel a lo hi = Ok n ->
    n <= length a /\
    (forall y, getn a n = Ok y -> p y = Ok true) /\
    (forall y, 0 < n -> getn a (n - 1) = Ok y -> p y = Ok false).
  Proof.
    induction fuel as [|fuel IH]; intros a lo hi n Hlo Hhi Hr Hl H; [discriminate|].
    cbn [bs_loop] in H. destruct (Nat.ltb_spec lo hi) as [Hlt|Hge].
    - assert (Hmid : lo <= (lo + hi) / 2 < hi).
      { split; [apply Nat.div_le_lower_bound; lia|apply Nat.div_lt_upper_bound; lia]. }
      set (mid := (lo + hi) / 2) in *. clearbody mid.
      apply rbind_Ok in H as (y & Hy & H). apply rbind_Ok in H as (b & Hb & H).
      destruct b.
      + eapply (IH a lo mid); try lia; [|exact Hl|exact H].
        intros z Hz. rewrite Hy in Hz. injection Hz as <-. exact Hb.
      + eapply (IH a (S mid) hi); try lia; [exact Hr| |exact H].
        intros z _ Hz. replace (S mid - 1) with mid in Hz by lia.
        rewrite Hy in Hz. injection Hz as <-. exact Hb.
    - injection H as <-. replace hi with lo in * by lia. auto.
  Qed.

  Lemma bs_Ok a n : bs a = Ok n ->
    n <= length a /\ Split (firstn n a) (skipn n a).
  Proof.
    intros H. unfold bs in H. apply bs_loop_Ok in H; try lia.
    - destruct H as (Hn & Hr & Hl). split; [exact Hn|].
      assert (Ha := firstn_skipn n a).
      assert (Hlen : length (firstn n a) = n) by (rewrite firstn_length; lia).
      split.
      + intros x t E. apply Hr. rewrite E in Ha. rewrite <- Ha. apply getn_app'. lia.
      + intros t x E. rewrite E in *. rewrite app_length in Hlen. cbn in Hlen.
        apply Hl; [lia|]. rewrite <- Ha, <- app_assoc. apply getn_app'. lia.
    - intros y Hy. apply getn_Ok_lt in Hy. lia.
  Qed.

  Lemma bs_loop_Err : forall fuel a lo hi e,
    hi <= length a -> hi - lo < fuel ->
    bs_loop fuel a lo hi = Err e -> exists y, In y a /\ p y = Err e.
  Proof.
    induction fuel as [|fuel IH]; intros a lo hi e Hhi Hf H; [lia|].
    cbn [bs_loop] in H. destruct (Nat.ltb_spec lo hi) as [Hlt|Hge]; [|discriminate].
    assert (Hmid : lo <= (lo + hi) / 2 < hi).
    { split; [apply Nat.div_le_lower_bound; lia|apply Nat.div_lt_upper_bound; lia]. }
    set (mid := (lo + hi) / 2) in *. clearbody mid.
    destruct (getn_lt a mid ltac:(lia)) as [y Hy]. rewrite Hy in H. cbn [rbind] in H.
    destruct (p y) as [b|e'] eqn:Hb; cbn [rbind] in H.
    - destruct b; eapply IH in H; eauto; lia.
    - injection H as ->. exists y. split; [|exact Hb].
      apply getn_Ok in Hy as (? & ? & -> & _). apply in_elt.
  Qed.

  Lemma bs_Err a e : bs a = Err e -> exists y, In y a /\ p y = Err e.
  Proof. apply bs_loop_Err; lia. Qed.
End BS.

Lemma bisect_right_bs {A} (lt : A -> A -> res bool) a x : bisect_right lt a x = bs (lt x) a.
Proof.
  unfold bisect_right, bs. generalize (S (length a)) as fuel. generalize 0 as lo.
  generalize (length a) as hi. intros hi lo fuel. revert lo hi.
  induction fuel as [|fuel IH]; intros lo hi; cbn [bisect_right_loop bs_loop]; [reflexivity|].
  destruct (lo <? hi); [|reflexivity]. destruct (getn a _); cbn [rbind]; [|reflexivity].
  destruct (lt x _) as [[]|]; cbn [rbind]; auto.
Qed.

Definition notR (r : res bool) : res bool := let! b := r in Ok (negb b).

Lemma bisect_left_bs {A} (lt : A -> A -> res bool) a x :
  bisect_left lt a x = bs (fun y => notR (lt y x)) a.
Proof.
  unfold bisect_left, bs. generalize (S (length a)) as fuel. generalize 0 as lo.
  generalize (length a) as hi. intros hi lo fuel. revert lo hi.
  induction fuel as [|fuel IH]; intros lo hi; cbn [bisect_left_loop bs_loop]; [reflexivity|].
  destruct (lo <? hi); [|reflexivity]. destruct (getn a _); cbn [rbind]; [|reflexivity].
  unfold notR. destruct (lt _ x) as [[]|]; cbn [rbind negb]; auto.
Qed.

(** [p] is upward closed along [l]. *)
Definition MonoOn {A} (p : A -> bool) (l : list A) : Prop :=
  StronglySorted (fun y z => p y = true -> p z = true) l.

Lemma ssorted_app_inv {A} (R : A -> A -> Prop) l1 l2 :
  StronglySorted R (l1 ++ l2) ->
  StronglySorted R l1 /\ StronglySorted R l2 /\ (forall x y, In x l1 -> In y l2 -> R x y).
Proof.
  induction l1 as [|a l1 IH]; cbn; intros H.
  - split; [constructor|]. split; [exact H|]. intros x y [].
  - apply StronglySorted_inv in H as [H HF]. destruct (IH H) as (H1 & H2 & H3).
    rewrite Forall_app in HF. destruct HF as [HF1 HF2].
    split; [constructor; assumption|]. split; [exact H2|].
    intros x y [->|Hx] Hy; [|auto]. rewrite Forall_forall in HF2. auto.
Qed.

Lemma ssorted_app {A} (R : A -> A -> Prop) l1 l2 :
  StronglySorted R l1 -> StronglySorted R l2 -> (forall x y, In x l1 -> In y l2 -> R x y) ->
  StronglySorted R (l1 ++ l2).
Proof.
  induction l1 as [|a l1 IH]; cbn; intros H1 H2 H3; [exact H2|].
  apply StronglySorted_inv in H1 as [H1 HF]. constructor.
  - apply IH; auto.
  - apply Forall_app. split; [exact HF|]. apply Forall_forall. auto.
Qed.

Lemma filter_all {A} (f : A -> bool) l : (forall x, In x l -> f x = true) -> filter f l = l.
Proof.
  induction l as [|x l IH]; intros H; cbn; [reflexivity|].
  rewrite H by (left; reflexivity). rewrite IH; [reflexivity|]. intros; apply H; right; assumption.
Qed.
Lemma filter_none {A} (f : A -> bool) l : (forall x, In x l -> f x = false) -> filter f l = [].
Proof.
  induction l as [|x l IH]; intros H; cbn; [reflexivity|].
  rewrite H by (left; reflexivity). apply IH. intros; apply H; right; assumption.
Qed.

(** Where [bs] splits a monotone list. *)
Lemma split_filter {A} (p : A -> bool) l1 l2 :
  MonoOn p (l1 ++ l2) -> Split (fun x => Ok (p x)) l1 l2 ->
  (forall x, In x l1 -> p x = false) /\ (forall x, In x l2 -> p x = true) /\
  filter (fun x => negb (p x)) (l1 ++ l2) = l1 /\ filter p (l1 ++ l2) = l2.
Proof.
  intros HM [Hr Hl]. apply ssorted_app_inv in HM as (H1 & H2 & _).
  assert (HL : forall x, In x l1 -> p x = false).
  { destruct l1 as [|y l1]; [intros x []|].
    destruct (exists_last (l := y :: l1)) as (t & z & E); [discriminate|]. rewrite E in *.
    assert (Hz := Hl t z eq_refl). injection Hz as Hz.
    apply ssorted_app_inv in H1 as (_ & _ & H1).
    intros x Hx. apply in_app_iff in Hx as [Hx|[->|[]]]; [|exact Hz].
    destruct (p x) eqn:Hp; [|reflexivity].
    rewrite (H1 x z Hx (or_introl eq_refl) Hp) in Hz. discriminate. }
  assert (HR : forall x, In x l2 -> p x = true).
  { destruct l2 as [|y l2]; [intros x []|].
    assert (Hy := Hr y l2 eq_refl). injection Hy as Hy.
    apply StronglySorted_inv in H2 as [_ H2]. rewrite Forall_forall in H2.
    intros x [->|Hx]; auto. }
  split; [exact HL|]. split; [exact HR|].
  rewrite !filter_app.
  rewrite (filter_all _ l1) by (intros x Hx; rewrite HL by exact Hx; reflexivity).
  rewrite (filter_none _ l2) by (intros x Hx; rewrite HR by exact Hx; reflexivity).
  rewrite (filter_none p l1) by exact HL. rewrite (filter_all p l2) by exact HR.
  rewrite app_nil_r. auto.
Qed.

(** ** Sorting (order-free facts) *)
Lemma sort_ins_perm {A} (lt : A -> A -> res bool) x l l' :
  sort_ins lt x l = Ok l' -> Permutation l' (x :: l).
Proof.
  revert l'. induction l as [|y t IH]; intros l' H; cbn [sort_ins] in H.
  - injection H as <-. reflexivity.
  - apply rbind_Ok in H as (b & Hb & H). destruct b.
    + injection H as <-. reflexivity.
    + apply rbind_Ok in H as (t' & Ht & H). injection H as <-.
      apply IH in Ht. rewrite Ht. apply perm_swap.
Qed.

Lemma sort_acc_perm {A} (lt : A -> A -> res bool) l : forall acc l',
  sort_acc lt acc l = Ok l' -> Permutation l' (acc ++ l).
Proof.
  induction l as [|x t IH]; intros acc l' H; cbn [sort_acc] in H.
  - injection H as <-. rewrite app_nil_r. reflexivity.
  - apply rbind_Ok in H as (acc' & Ha & H). apply IH in H. apply sort_ins_perm in Ha.
    rewrite H, Ha. cbn. apply Permutation_middle.
Qed.

Lemma py_sorted_perm {A} (lt : A -> A -> res bool) l l' :
  py_sorted lt l = Ok l' -> Permutation l' l.
Proof. apply sort_acc_perm. Qed.

Lemma map_snd_combine {A B} (a : list A) (b : list B) :
  length a = length b -> map snd (combine a b) = b.
Proof.
  revert b. induction a as [|x a IH]; intros [|y b] H; cbn in *; try discriminate; [reflexivity|].
  rewrite IH by lia. reflexivity.
Qed.

Lemma py_sorted_key_Ok {V K} (lt : K -> K -> res bool) (kf : V -> res K) l l' :
  py_sorted_key lt kf l = Ok l' -> Permutation l' l /\ exists ks, mapR kf l' = Ok ks.
Proof.
  unfold py_sorted_key. intros H. apply rbind_Ok in H as (ks & Hks & H).
  apply rbind_Ok in H as (ps & Hps & H). injection H as <-.
  apply py_sorted_perm in Hps. apply (Permutation_map snd) in Hps.
  rewrite map_snd_combine in Hps by (eapply mapR_length; eauto).
  split; [exact Hps|]. eapply mapR_perm; [symmetry; exact Hps|exact Hks].
Qed.

(** With the identity key, sorting by key is sorting. *)
Lemma sort_ins_map {A B} (f : A -> B) (lt : A -> A -> res bool) (lt' : B -> B -> res bool) x l :
  (forall a b, lt' (f a) (f b) = lt a b) ->
  sort_ins lt' (f x) (map f l) = let! r := sort_ins lt x l in Ok (map f r).
Proof.
  intros H. induction l as [|y t IH]; cbn [map sort_ins]; [reflexivity|].
  rewrite H. destruct (lt x y) as [[]|]; cbn [rbind]; [reflexivity| |reflexivity].
  rewrite IH. destruct (sort_ins lt x t); reflexivity.
Qed.
Lemma sort_acc_map {A B} (f : A -> B) (lt : A -> A -> res bool) (lt' : B -> B -> res bool) l :
  (forall a b, lt' (f a) (f b) = lt a b) -> forall acc,
  sort_acc lt' (map f acc) (map f l) = let! r := sort_acc lt acc l in Ok (map f r).
Proof.
  intros H. induction l as [|y t IH]; intros acc; cbn [map sort_acc]; [reflexivity|].
  rewrite (sort_ins_map f lt lt') by exact H.
  destruct (sort_ins lt y acc); cbn [rbind]; [apply IH|reflexivity].
Qed.
Lemma py_sorted_map {A B} (f : A -> B) (lt : A -> A -> res bool) (lt' : B -> B -> res bool) l :
  (forall a b, lt' (f a) (f b) = lt a b) ->
  py_sorted lt' (map f l) = let! r := py_sorted lt l in Ok (map f r).
Proof. intros H. apply (sort_acc_map f lt lt' l H []). Qed.

Lemma py_sorted_key_id {V} (lt : V -> V -> res bool) l :
  py_sorted_key lt (fun v => Ok v) l = py_sorted lt l.
Proof.
  unfold py_sorted_key. rewrite mapR_Ok_id. cbn [rbind].
  replace (combine l l) with (map (fun x => (x, x)) l)
    by (induction l as [|x l IH]; cbn; [reflexivity|rewrite IH; reflexivity]).
  rewrite (py_sorted_map (fun x => (x, x)) lt) by reflexivity.
  destruct (py_sorted lt l); cbn [rbind]; [|reflexivity].
  rewrite map_map. cbn. rewrite map_id. reflexivity.
Qed.

Lemma py_sorted_key_total {V K} (lt : K -> K -> res bool) (key : V -> K) l :
  py_sorted_key lt (fun v => Ok (key v)) l = py_sorted (fun x y => lt (key x) (key y)) l.
Proof.
  unfold py_sorted_key. rewrite mapR_map. cbn [rbind].
  replace (combine (map key l) l) with (map (fun x => (key x, x)) l)
    by (induction l as [|x l IH]; cbn; [reflexivity|rewrite IH; reflexivity]).
  rewrite (py_sorted_map (fun x => (key x, x)) (fun x y => lt (key x) (key y))) by reflexivity.
  destruct (py_sorted _ l); cbn [rbind]; [|reflexivity].
  rewrite map_map. cbn. rewrite map_id. reflexivity.
Qed.

(** ** Chunks *)
Lemma chunks_ok {A} (load : nat) (l : list A) : 1 <= load ->
  exists cs, chunks load l = Ok cs /\ concat cs = l /\
    Forall (fun c => c <> [] /\ length c <= load) cs /\
    Forall (fun c => length c = load) (removelast cs).
Proof.
  intros Hl. unfold chunks. destruct (Nat.eqb_spec load 0); [lia|].
  assert (H : forall fuel (l : list A), length l <= fuel -> exists cs, chunks_fuel fuel load l = Ok cs /\
    concat cs = l /\ Forall (fun c => c <> [] /\ length c <= load) cs /\
    Forall (fun c => length c = load) (removelast cs)).
  { clear l; induction fuel as [|fuel IH]; intros l Hf.
    - destruct l; [|cbn in Hf; lia]. exists []. cbn. auto.
    - destruct l as [|x t]; [exists []; cbn; auto|]. cbn [chunks_fuel].
      destruct (IH (skipn load (x :: t))) as (cs & H1 & H2 & H3 & H4).
      { rewrite skipn_length. cbn [length] in *. lia. }
      rewrite H1. cbn [rbind]. eexists. split; [reflexivity|]. split; [|split].
      + cbn [concat]. rewrite H2. apply firstn_skipn.
      + constructor; [|exact H3]. split.
        * destruct load; [lia|]. discriminate.
        * rewrite firstn_length. lia.
      + destruct cs as [|c cs]; [constructor|].
        change (removelast (firstn load (x :: t) :: c :: cs))
          with (firstn load (x :: t) :: removelast (c :: cs)).
        constructor; [|exact H4]. rewrite firstn_length. cbn [concat] in H2.
        assert (Hne : skipn load (x :: t) <> []).
        { rewrite <- H2. inversion H3 as [|? ? [Hc _] _]; subst. destruct c; [congruence|discriminate]. }
        assert (load < length (x :: t)); [|lia].
        destruct (Nat.le_gt_cases (length (x :: t)) load) as [Hle|]; [|lia].
        rewrite skipn_all2 in Hne by exact Hle. congruence. }
  apply H. lia.
Qed.

(** ** Monad *)
Lemma forM_app {S A} (f : A -> M S unit) l1 l2 s :
  forM f (l1 ++ l2) s = (forM f l1 ;;; forM f l2) s.
Proof.
  revert s. induction l1 as [|x l1 IH]; intros s; [reflexivity|].
  cbn [app forM]. unfold bind in *. destruct (f x s) as [[]]; [apply IH|reflexivity].
Qed.

Lemma fold_left_ext {A B} (f g : A -> B -> A) l : (forall a b, f a b = g a b) ->
  forall a, fold_left f l a = fold_left g l a.
Proof. intros H. induction l as [|x l IH]; intros a; cbn; [reflexivity|]. rewrite H. apply IH. Qed.

Lemma length_concat {A} (l : list (list A)) : length (concat l) = list_sum (map (@length A) l).
Proof. induction l as [|x l IH]; cbn; [reflexivity|]. rewrite app_length, IH. reflexivity. Qed.

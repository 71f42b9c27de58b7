(** * Splits and merges are rare: a potential for the sizes of the internal lists *)
From Coq Require Import List Arith Lia ZArith.
From Verif Require Import PyBase BaseFacts Model History Spec Shape IndexFacts FaultSpec BalanceSpec BalanceFacts ListSim AmortSpec.
Import ListNotations.
Local Unset Implicit Arguments.

(** ** The potential *)
Definition phi (ld n : nat) : nat := (n - ld) + 3 * (ld - n).
Definition full {V} (ld : nat) (ls : list (list V)) : nat := list_sum (map (fun r => phi ld (length r)) ls).
Definition strain {V} (ld : nat) (ls : list (list V)) : nat :=
  match ls with [] => 0 | [r] => length r - ld | _ => full ld ls end.

Lemma full_app {V} ld (a b : list (list V)) : full ld (a ++ b) = full ld a + full ld b.
Proof. unfold full. rewrite map_app. apply list_sum_app. Qed.

Section Strain.
  Context {V : Type}.
  Variable ld : nat.
  Notation full := (@full V ld).
  Notation strain := (@strain V ld).

  Lemma full_cons r b : full (r :: b) = phi ld (length r) + full b.
  Proof. reflexivity. Qed.
  Lemma strain_full l : strain l <= full l.
  Proof. destruct l as [|r [|r' l]]; [reflexivity| |reflexivity]. cbn. unfold phi. lia. Qed.
  Lemma strain_two a x y b : strain (a ++ x :: y :: b) = full a + phi ld (length x) + phi ld (length y) + full b.
  Proof.
    assert (E : strain (a ++ x :: y :: b) = full (a ++ x :: y :: b)).
    { destruct a as [|z [|z' a]]; reflexivity. }
    rewrite E, full_app, !full_cons. lia.
  Qed.
  Lemma strain_one a x b : (a = [] /\ b = [] /\ strain (a ++ x :: b) = length x - ld) \/
    ((forall x', strain (a ++ x' :: b) = full a + phi ld (length x') + full b)).
  Proof.
    destruct a as [|y a]; [destruct b as [|z b]; [left; auto|]|]; right; intros x'.
    - rewrite full_cons, (strain_two [] x' z b). lia.
    - assert (E : strain ((y :: a) ++ x' :: b) = full ((y :: a) ++ x' :: b)) by (destruct a; reflexivity).
      rewrite E, full_app, !full_cons. lia.
  Qed.
  Lemma strain_grow a r r' b : length r' = Datatypes.S (length r) -> strain (a ++ r' :: b) <= strain (a ++ r :: b) + 1.
  Proof.
    intros H. destruct (strain_one a r b) as [(-> & -> & E)|E].
    - cbn. lia.
    - rewrite !E. unfold phi. lia.
  Qed.
  Lemma strain_shrink a r r' b : length r = Datatypes.S (length r') -> strain (a ++ r' :: b) <= strain (a ++ r :: b) + 3.
  Proof.
    intros H. destruct (strain_one a r b) as [(-> & -> & E)|E].
    - cbn. lia.
    - rewrite !E. unfold phi. lia.
  Qed.
  Lemma strain_split a r x y b : 2 * ld < length x + length y -> length x = ld -> length x + length y = Datatypes.S (length r) ->
    length r <= 2 * ld -> strain (a ++ x :: y :: b) + ld <= strain (a ++ r :: b) + 1.
  Proof.
    intros H1 H2 H3 H4. rewrite strain_two. destruct (strain_one a r b) as [(-> & -> & E)|E]; rewrite E; cbn; unfold phi; lia.
  Qed.
  (** Two neighbours [p], [q], from one of which a value is removed, leaving [p'] and [q'] values. *)
  Lemma strain_merge a p q p' q' b m : 
    ((length p = Datatypes.S p' /\ length q = q' /\ p' <= ld / 2) \/ (length p = p' /\ length q = Datatypes.S q' /\ q' <= ld / 2)) ->
    length p <= 2 * ld -> length q <= 2 * ld -> length m = p' + q' -> length m <= 2 * ld ->
    strain (a ++ m :: b) + ld <= strain (a ++ p :: q :: b) + 3.
  Proof.
    intros H Hp Hq Hm Hs. rewrite strain_two. pose proof (strain_full (a ++ m :: b)) as Hf. rewrite full_app, full_cons in Hf.
    pose proof (Nat.mul_div_le ld 2). unfold phi in *. lia.
  Qed.
  Lemma strain_merge_split a p q p' q' b x y : 
    ((length p = Datatypes.S p' /\ length q = q' /\ p' <= ld / 2) \/ (length p = p' /\ length q = Datatypes.S q' /\ q' <= ld / 2)) ->
    length p <= 2 * ld -> length q <= 2 * ld -> length x + length y = p' + q' -> 2 * ld < p' + q' -> length x = ld ->
    strain (a ++ x :: y :: b) + ld <= strain (a ++ p :: q :: b) + 3.
  Proof.
    intros H Hp Hq Hm Hs Hx. rewrite !strain_two. 
    pose proof (Nat.mul_div_le ld 2). unfold phi in *. lia.
  Qed.
End Strain.

(** ** What a successful computation ends in *)
Definition after {S A} (P Q : S -> Prop) (m : M S A) : Prop := forall s a s', P s -> m s = (Ok a, s') -> Q s'.

Lemma bind_inv {S A B} (m : M S A) (k : A -> M S B) s b s' : bind m k s = (Ok b, s') ->
  exists a s1, m s = (Ok a, s1) /\ k a s1 = (Ok b, s').
Proof. unfold bind. destruct (m s) as [[a|e] s1]; [eauto|discriminate]. Qed.
Lemma modifyR_inv {S} (f : S -> res S) s u s' : modifyR f s = (Ok u, s') -> f s = Ok s'.
Proof. unfold modifyR. destruct (f s); [|discriminate]. intros H. injection H as _ <-. reflexivity. Qed.
Lemma updn_inv {A} (l l' : list A) i f : updn l i f = Ok l' ->
  exists a x x' b, l = a ++ x :: b /\ length a = i /\ f x = Ok x' /\ l' = a ++ x' :: b.
Proof.
  revert i l'. induction l as [|x t IH]; intros [|i] l'; cbn; try discriminate.
  - destruct (f x) as [x'|] eqn:E; cbn; [|discriminate]. intros H. injection H as <-. exists [], x, x', t. auto.
  - destruct (updn t i f) as [t'|] eqn:E; cbn; [|discriminate]. intros H. injection H as <-.
    destruct (IH _ _ E) as (a & y & y' & b & -> & <- & Hf & ->). exists (x :: a), y, y', b. auto.
Qed.
Lemma setn_inv {A} (l l' : list A) i x' : setn l i x' = Ok l' ->
  exists a x b, l = a ++ x :: b /\ length a = i /\ l' = a ++ x' :: b.
Proof. intros H. apply updn_inv in H as (a & x & y & b & H1 & H2 & H3 & H4). injection H3 as <-. eauto 6. Qed.
Lemma deln_inv {A} (l l' : list A) i : deln l i = Ok l' ->
  exists a x b, l = a ++ x :: b /\ length a = i /\ l' = a ++ b.
Proof.
  intros H. pose proof (deln_len _ _ _ H) as [Hi _]. destruct (split_at l i Hi) as (a & x & b & -> & <-).
  rewrite deln_app in H. injection H as <-. eauto 6.
Qed.
Lemma split_eq {A} (a a' : list A) x x' b b' : a ++ x :: b = a' ++ x' :: b' -> length a = length a' -> a = a' /\ x = x' /\ b = b'.
Proof.
  revert a'. induction a as [|y a IH]; intros [|y' a']; cbn; try discriminate.
  - intros H _. injection H as <- <-. auto.
  - intros H Hl. injection H as <- H. injection Hl as Hl. destruct (IH _ H Hl) as (<- & <- & <-). auto.
Qed.
Lemma map_at {A B C} (f : A -> C) (g : B -> C) (a : list A) x b (a' : list B) x' b' :
  map f (a ++ x :: b) = map g (a' ++ x' :: b') -> length a = length a' -> map f a = map g a' /\ f x = g x' /\ map f b = map g b'.
Proof.
  intros H Hl. rewrite !map_app in H. cbn [map] in H.
  apply split_eq in H; [exact H|]. rewrite !map_length. exact Hl.
Qed.
Lemma idx_walk_some f child ix ix' : index_walk f child ix = Ok ix' -> ix <> [] -> ix' <> [].
Proof. intros H. apply index_walk_len in H. destruct ix, ix'; try discriminate; auto. Qed.
Lemma inc_inv {V K} (c c' : core V K) pos : index_inc c pos = Ok c' ->
  lists c' = lists c /\ load c' = load c /\ (index c <> [] -> index c' <> []).
Proof.
  unfold index_inc. destruct (is_nil (index c)) eqn:E; [intros H; injection H as <-; auto|].
  destruct (index_walk _ _ _) as [ix|] eqn:W; cbn [rbind]; [|discriminate]. intros H. injection H as <-.
  split; [reflexivity|]. split; [reflexivity|]. exact (idx_walk_some _ _ _ _ W).
Qed.
Lemma dec_inv {V K} (c c' : core V K) pos : index_dec c pos = Ok c' ->
  lists c' = lists c /\ load c' = load c /\ (index c <> [] -> index c' <> []).
Proof.
  unfold index_dec. destruct (is_nil (index c)) eqn:E; [intros H; injection H as <-; auto|].
  destruct (index_walk _ _ _) as [ix|] eqn:W; cbn [rbind]; [|discriminate]. intros H. injection H as <-.
  split; [reflexivity|]. split; [reflexivity|]. exact (idx_walk_some _ _ _ _ W).
Qed.

Lemma getn_snd {X} (a : list X) x y b q : q = Datatypes.S (length a) -> getn (a ++ x :: y :: b) q = Ok y.
Proof.
  intros ->. change (a ++ x :: y :: b) with (a ++ [x] ++ y :: b). rewrite app_assoc. apply getn_app'.
  rewrite app_length. cbn. lia.
Qed.
Lemma deln_snd {X} (a : list X) x y b q : q = Datatypes.S (length a) -> deln (a ++ x :: y :: b) q = Ok (a ++ x :: b).
Proof.
  intros ->. change (a ++ x :: y :: b) with (a ++ [x] ++ y :: b). rewrite app_assoc.
  replace (Datatypes.S (length a)) with (length (a ++ [x])) by (rewrite app_length; cbn; lia).
  rewrite deln_app, <- app_assoc. reflexivity.
Qed.

(** ** SortedKeyList: adding and deleting one value *)
(** Nothing but the positional index has changed since [c0], and that not for the worse. *)
Definition same_rows {V K} (c0 c : core V K) : Prop :=
  lists c = lists c0 /\ load c = load c0 /\ length (maxes c) = length (lists c) /\ (index c0 <> [] -> index c <> []).
Definition same_krows {V K} (c0 : core V K) (s : skl V K) : Prop :=
  same_rows c0 (kc s) /\ map (@length K) (keys s) = map (@length V) (lists (kc s)).

(** One step with cost at most [d]. *)
Definition paid {V K} (d : nat) (c0 c : core V K) : Prop :=
  load c = load c0 /\
  ((calm c0 c /\ strain (load c0) (lists c) <= strain (load c0) (lists c0) + d) \/
   strain (load c0) (lists c) + load c0 <= strain (load c0) (lists c0) + d).

Section KeyPaid.
  Context {V K : Type}.
  Variable klt : K -> K -> res bool.
  Variable kf : V -> res K.
  Notation SKL := (skl V K).

  Lemma expand_inv (s s' : SKL) u A r B : lists (kc s) = A ++ r :: B ->
    map (@length K) (keys s) = map (@length V) (lists (kc s)) -> skl_expand (length A) s = (Ok u, s') ->
    load (kc s') = load (kc s) /\
    ((2 * load (kc s) < length r /\ lists (kc s') = A ++ firstn (load (kc s)) r :: skipn (load (kc s)) r :: B) \/
     (length r <= 2 * load (kc s) /\ lists (kc s') = A ++ r :: B /\ (index (kc s) <> [] -> index (kc s') <> []))).
  Proof.
    clear klt kf. intros HL HK H. unfold skl_expand in H. apply modifyR_inv in H. cbv zeta in H.
    apply rbind_Ok in H as (ks & G & H). apply getn_Ok in G as (KA & KB & EK & LA).
    rewrite EK, HL in HK. apply map_at in HK; [|exact LA]. destruct HK as (_ & Hr & _).
    destruct (Nat.ltb_spec (load (kc s) * 2) (length ks)) as [Hlt|Hge].
    - apply rbind_Ok in H as (l & G & H). rewrite HL, getn_app in G. injection G as <-.
      apply rbind_Ok in H as (ls & G & H). rewrite HL, setn_app in G. injection G as <-.
      apply rbind_Ok in H as (? & _ & H). apply rbind_Ok in H as (? & _ & H). apply rbind_Ok in H as (? & _ & H).
      apply rbind_Ok in H as (? & _ & H). injection H as <-. split; [reflexivity|]. left.
      split; [lia|]. cbn. rewrite insn_app_S. reflexivity.
    - apply rbind_Ok in H as (c' & G & H). injection H as <-. apply inc_inv in G as (G1 & G2 & G3).
      split; [exact G2|]. right. split; [lia|]. split; [|exact G3]. cbn. rewrite <- HL. exact G1.
  Qed.

  Lemma lens_set {X Y} (a : list (list X)) (x : list X) b (a' : list (list Y)) x' b' y y' :
    map (@length X) (a ++ x :: b) = map (@length Y) (a' ++ x' :: b') -> length a = length a' -> length y = length y' ->
    map (@length X) (a ++ y :: b) = map (@length Y) (a' ++ y' :: b').
  Proof.
    intros H Hl Hy. apply map_at in H as (H1 & _ & H3); [|exact Hl]. rewrite !map_app. cbn [map]. congruence.
  Qed.

  Lemma skl_add_paid c0 v : Forall (fun l => length l <= 2 * load c0) (lists c0) ->
    after (same_krows c0) (fun s => paid 1 c0 (kc s)) (skl_add klt kf v).
  Proof.
    intros Hsz s a s' ((E1 & E2 & E3 & E4) & EK) H. unfold skl_add in H.
    apply bind_inv in H as (k & s1 & G & H). injection G as _ <-.
    apply bind_inv in H as (? & ? & G & H). injection G as <- <-.
    apply bind_inv in H as (? & s2 & G & H). injection H as _ <-.
    enough (HP : paid 1 c0 (kc s2)) by exact HP.
    destruct (is_nil (maxes (kc s))) eqn:En.
    { injection G as _ <-. assert (E : lists (kc s) = []) by (destruct (lists (kc s)), (maxes (kc s)); try discriminate; reflexivity).
      split; [exact E2|]. left. unfold calm. cbn. rewrite <- E1, E. split; [|change (1 - load c0 <= 0 + 1); lia]. right. split; [|exact E4].
      right. left. split; [reflexivity|]. exists [v]. reflexivity. }
    assert (fin : forall (st : SKL) A r r' B, lists c0 = A ++ r :: B -> length r' = Datatypes.S (length r) ->
        lists (kc st) = A ++ r' :: B -> load (kc st) = load c0 -> (index c0 <> [] -> index (kc st) <> []) ->
        map (@length K) (keys st) = map (@length V) (lists (kc st)) -> forall u, skl_expand (length A) st = (Ok u, s2) ->
        paid 1 c0 (kc s2)).
    { intros st A r r' B EL Hr HL Hld Hix Hk u Hx.
      assert (Hr2 : length r <= 2 * load c0) by (rewrite EL in Hsz; apply Forall_app in Hsz as [_ Hsz]; inversion Hsz; assumption).
      destruct (expand_inv st s2 u A r' B HL Hk Hx) as (Q1 & [(Q2 & Q3)|(Q2 & Q3 & Q4)]).
      - split; [congruence|]. right. rewrite Q3, EL, Hld. apply strain_split.
        + rewrite firstn_length, skipn_length. lia.
        + rewrite firstn_length. lia.
        + rewrite firstn_length, skipn_length. lia.
        + exact Hr2.
      - split; [congruence|]. left. rewrite Q3, EL. split; [|apply strain_grow; exact Hr].
        right. split; [|auto]. right. right. exists A, r, r', B. split; [exact EL|exact Q3]. }
    apply bind_inv in G as (pos & ? & G1 & G). injection G1 as _ <-.
    destruct (pos =? _).
    - apply bind_inv in G as (? & st1 & G1 & G). apply modifyR_inv in G1. apply rbind_Ok in G1 as (ls & U1 & G1). injection G1 as <-.
      apply bind_inv in G as (? & st2 & G1 & G). apply modifyR_inv in G1. apply rbind_Ok in G1 as (kss & U2 & G1). injection G1 as <-.
      apply bind_inv in G as (? & st3 & G1 & G). apply modifyR_inv in G1. apply rbind_Ok in G1 as (ms & _ & G1). injection G1 as <-.
      apply updn_inv in U1 as (A & r & r' & B & EL & LA & Hr & ->). injection Hr as <-.
      apply updn_inv in U2 as (KA & kr & kr' & KB & EKL & LKA & Hkr & ->). injection Hkr as <-.
      cbn [keys on_kc] in EKL. rewrite <- LA in G.
      refine (fin _ A r (r ++ [v]) B _ _ _ _ _ _ _ G); [congruence|rewrite app_length; cbn; lia|reflexivity|exact E2|exact E4|].
      cbn. rewrite EKL, EL in EK. apply (lens_set _ _ _ _ _ _ _ _ EK); [congruence|].
      apply map_at in EK as (_ & EK & _); [|congruence]. rewrite !app_length. cbn. lia.
    - apply bind_inv in G as (ks & ? & G1 & G). injection G1 as _ <-.
      apply bind_inv in G as (idx & ? & G1 & G). injection G1 as _ <-.
      apply bind_inv in G as (? & st1 & G1 & G). apply modifyR_inv in G1. apply rbind_Ok in G1 as (ls & U1 & G1). injection G1 as <-.
      apply bind_inv in G as (? & st2 & G1 & G). apply modifyR_inv in G1. apply rbind_Ok in G1 as (kss & U2 & G1). injection G1 as <-.
      apply updn_inv in U1 as (A & r & r' & B & EL & LA & Hr & ->). injection Hr as <-.
      apply updn_inv in U2 as (KA & kr & kr' & KB & EKL & LKA & Hkr & ->). injection Hkr as <-.
      cbn [keys on_kc] in EKL. rewrite <- LA in G.
      refine (fin _ A r (insn r idx v) B _ _ _ _ _ _ _ G); [congruence|apply insn_len|reflexivity|exact E2|exact E4|].
      cbn. rewrite EKL, EL in EK. apply (lens_set _ _ _ _ _ _ _ _ EK); [congruence|].
      apply map_at in EK as (_ & EK & _); [|congruence]. rewrite !insn_len. congruence.
  Qed.

  Lemma skl_delete_paid (c0 : core V K) pos idx : Forall (fun l => length l <= 2 * load c0) (lists c0) ->
    after (same_krows c0) (fun s => paid 3 c0 (kc s)) (skl_delete pos idx).
  Proof.
    clear klt kf. intros Hsz s a s' ((E1 & E2 & E3 & E4) & EK) H. unfold skl_delete in H.
    apply bind_inv in H as (? & st1 & G1 & H). apply modifyR_inv in G1. apply rbind_Ok in G1 as (kss & U1 & G1). injection G1 as <-.
    apply bind_inv in H as (? & st2 & G1 & H). apply modifyR_inv in G1. apply rbind_Ok in G1 as (ls & U2 & G1). injection G1 as <-.
    apply bind_inv in H as (? & st3 & G1 & H). apply modifyR_inv in G1. apply rbind_Ok in G1 as (n & _ & G1). injection G1 as <-.
    apply updn_inv in U1 as (KA & kr & kr' & KB & EKL & LKA & Hkr & ->).
    apply updn_inv in U2 as (A & r & r' & B & EL & LA & Hr & ->). cbn [kc set_keys] in EL.
    apply deln_len in Hkr as [_ Hkr]. apply deln_len in Hr as [_ Hr].
    rewrite EKL, EL in EK.
    assert (Hkl : length kr' = length r') by (apply map_at in EK as (_ & EK & _); [|congruence]; lia).
    pose proof (lens_set _ _ _ _ _ _ kr' r' EK ltac:(congruence) Hkl) as EK'.
    rewrite E1 in EL.
    assert (Hr2 : length r <= 2 * load c0) by (rewrite EL in Hsz; apply Forall_app in Hsz as [_ Hsz]; inversion Hsz; assumption).
    apply bind_inv in H as (? & ? & G & H). injection G as <- <-.
    apply bind_inv in H as (keys_pos & ? & G & H). injection G as G <-.
    cbn [keys on_kc set_keys] in G. rewrite <- LKA, getn_app in G. injection G as <-. cbv zeta in H.
    cbn [load kc on_kc set_keys set_len set_lists keys] in H. rewrite E2 in H.
    destruct (Nat.ltb_spec (load c0 / 2) (length kr')) as [Hh|Hh].
    { apply bind_inv in H as (? & st4 & G1 & H). apply modifyR_inv in G1.
      apply rbind_Ok in G1 as (? & _ & G1). apply rbind_Ok in G1 as (? & _ & G1). injection G1 as <-.
      apply modifyR_inv in H. apply rbind_Ok in H as (c1 & G1 & H). injection H as <-.
      apply dec_inv in G1 as (Q1 & Q2 & Q3). cbn in Q1, Q2, Q3.
      split; [cbn; congruence|]. left. cbn [kc set_kc]. rewrite Q1, EL. split; [|apply strain_shrink; exact Hr].
      right. cbn [kc set_kc]. rewrite Q1, EL. split; [|auto]. right. right. exists A, r, r', B. auto. }
    destruct (Nat.ltb_spec 1 (length (KA ++ kr' :: KB))) as [Hm|Hm].
    - (* merge with a neighbour *)
      set (q := if pos =? 0 then pos + 1 else pos) in H.
      apply bind_inv in H as (? & st4 & G1 & H). apply modifyR_inv in G1. apply rbind_Ok in G1 as (kp & Gk & G1).
      apply rbind_Ok in G1 as (kss & U1 & G1). injection G1 as <-.
      apply bind_inv in H as (? & st5 & G1 & H). apply modifyR_inv in G1. apply rbind_Ok in G1 as (lp & Gl & G1).
      apply rbind_Ok in G1 as (ls & U2 & G1). injection G1 as <-.
      apply bind_inv in H as (? & st6 & G1 & H). apply modifyR_inv in G1.
      apply rbind_Ok in G1 as (? & _ & G1). apply rbind_Ok in G1 as (? & _ & G1). apply rbind_Ok in G1 as (? & _ & G1). injection G1 as <-.
      apply bind_inv in H as (? & st7 & G1 & H). apply modifyR_inv in G1. apply rbind_Ok in G1 as (ls2 & D1 & G1). injection G1 as <-.
      apply bind_inv in H as (? & st8 & G1 & H). apply modifyR_inv in G1. apply rbind_Ok in G1 as (kss2 & D2 & G1). injection G1 as <-.
      apply bind_inv in H as (? & st9 & G1 & H). apply modifyR_inv in G1. apply rbind_Ok in G1 as (? & _ & G1). injection G1 as <-.
      apply bind_inv in H as (? & st10 & G1 & H). injection G1 as _ <-.
      cbn [keys kc on_kc set_keys set_lists lists set_len set_maxes] in *.
      (* the two neighbours, before and after the removal *)
      assert (N : exists A1 p1 q1 B1 p0 q0 KA1 kp1 kq1 KB1, A ++ r' :: B = A1 ++ p1 :: q1 :: B1 /\ KA ++ kr' :: KB = KA1 ++ kp1 :: kq1 :: KB1 /\
                  length A1 = length KA1 /\ q = Datatypes.S (length A1) /\ lists c0 = A1 ++ p0 :: q0 :: B1 /\
                  ((length p0 = Datatypes.S (length p1) /\ length q0 = length q1 /\ length p1 <= load c0 / 2) \/
                   (length p0 = length p1 /\ length q0 = Datatypes.S (length q1) /\ length q1 <= load c0 / 2))).
      { assert (HAK : length A = length KA) by congruence.
        assert (HBK : length B = length KB). { apply (f_equal (@length _)) in EK'. rewrite !map_length, !app_length in EK'. cbn in EK'. lia. }
        subst q. destruct (Nat.eqb_spec pos 0) as [Hz|Hz].
        - destruct A as [|? A]; [|cbn in LA; lia]. destruct KA as [|? KA]; [|cbn in LKA; lia].
          destruct B as [|q1 B]; destruct KB as [|kq1 KB]; cbn in HBK, Hm; try lia.
          exists [], r', q1, B, r, q1, [], kr', kq1, KB. rewrite Hz. cbn [app] in *. split; [reflexivity|]. split; [reflexivity|].
          split; [reflexivity|]. split; [reflexivity|]. split; [exact EL|]. left. split; [exact Hr|]. split; [reflexivity|lia].
        - destruct (exists_last (l := A)) as (A1 & p1 & ->); [intros ->; cbn in LA; lia|].
          destruct (exists_last (l := KA)) as (KA1 & kp1 & ->); [intros ->; cbn in LKA; lia|].
          rewrite app_length in LA, HAK. rewrite (app_length KA1) in HAK. cbn in LA, HAK.
          exists A1, p1, r', B, p1, r, KA1, kp1, kr', KB. rewrite <- !app_assoc in *. cbn [app] in *.
          split; [reflexivity|]. split; [reflexivity|]. split; [lia|]. split; [lia|]. split; [exact EL|].
          right. split; [reflexivity|]. split; [exact Hr|lia]. }
      destruct N as (A1 & p1 & q1 & B1 & p0 & q0 & KA1 & kp1 & kq1 & KB1 & N1 & N2 & N3 & N4 & N5 & N6).
      clearbody q. rewrite N1 in *. rewrite N2 in *.
      rewrite getn_snd in Gl by exact N4. injection Gl as <-. rewrite getn_snd in Gk by congruence. injection Gk as <-.
      replace (q - 1) with (length A1) in * by lia.
      rewrite updn_app in U2. cbn in U2. injection U2 as <-.
      rewrite N3, updn_app in U1. cbn in U1. injection U1 as <-.
      rewrite deln_snd in D1 by exact N4. injection D1 as <-. rewrite deln_snd in D2 by congruence. injection D2 as <-.
      assert (Hb : length p0 <= 2 * load c0 /\ length q0 <= 2 * load c0).
      { rewrite N5 in Hsz. apply Forall_app in Hsz as [_ Hsz]. inversion Hsz as [|? ? I1 I2]; subst. inversion I2; subst. auto. }
      match type of H with skl_expand _ ?st = _ => destruct (expand_inv st s' a A1 (p1 ++ q1) B1 eq_refl) with (2 := H) as (Q1 & Q) end.
      { cbn. rewrite !map_app in EK'. cbn [map] in EK'.
        change (map (@length V) A1 ++ length p1 :: length q1 :: map (@length V) B1) with (map (@length V) A1 ++ length p1 :: (length q1 :: map (@length V) B1)) in EK'.
        apply split_eq in EK'; [|rewrite !map_length; congruence]. destruct EK' as (K1 & K2 & K3). injection K3 as K3 K4.
        rewrite !map_app. cbn [map]. rewrite !app_length. congruence. }
      cbn in Q1, Q. rewrite E2 in Q1, Q. split; [exact Q1|]. right. rewrite N5.
      destruct Q as [(Q2 & Q3)|(Q2 & Q3 & _)]; rewrite Q3.
      + rewrite app_length in Q2.
        apply (strain_merge_split (load c0) A1 p0 q0 (length p1) (length q1) B1); try tauto; try lia.
        * rewrite firstn_length, skipn_length, app_length. lia.
        * rewrite firstn_length, app_length. lia.
      + apply (strain_merge (load c0) A1 p0 q0 (length p1) (length q1) B1); try tauto. apply app_length.
    - destruct (Nat.ltb_spec 0 (length kr')) as [Hn|Hn].
      + apply modifyR_inv in H. apply rbind_Ok in H as (? & _ & H). apply rbind_Ok in H as (? & _ & H). injection H as <-.
        split; [exact E2|]. left. cbn [kc on_kc set_maxes lists set_len set_lists set_keys]. rewrite EL.
        split; [|apply strain_shrink; exact Hr]. right. split; [|exact E4]. right. right. exists A, r, r', B. auto.
      + apply bind_inv in H as (? & st7 & G1 & H). apply modifyR_inv in G1. apply rbind_Ok in G1 as (ls2 & D1 & G1). injection G1 as <-.
        apply bind_inv in H as (? & st8 & G1 & H). apply modifyR_inv in G1. apply rbind_Ok in G1 as (kss2 & D2 & G1). injection G1 as <-.
        apply bind_inv in H as (? & st9 & G1 & H). apply modifyR_inv in G1. apply rbind_Ok in G1 as (? & _ & G1). injection G1 as <-.
        injection H as _ <-. cbn [keys kc on_kc set_keys set_lists lists set_len set_maxes set_index load] in *.
        apply deln_len in D1 as [_ D1].
        assert (HBK : length (A ++ r' :: B) = length (KA ++ kr' :: KB)).
        { apply (f_equal (@length _)) in EK'. rewrite !map_length in EK'. congruence. }
        assert (ls2 = []) as -> by (destruct ls2; [reflexivity|cbn in D1; lia]).
        split; [exact E2|]. left. split; [left; reflexivity|cbn; lia].
  Qed.
End KeyPaid.

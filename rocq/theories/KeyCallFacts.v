(** * Facts about the calls of user code made by a SortedKeyList *)
From Verif Require Import PyBase Model Spec History Reach BaseFacts SpecFacts SliceFacts IndexFacts Shape CoreFacts VtFacts
  KeyFacts KeyLook CallSpec CallFacts ModelEffect KeyCallSpec EffectSameSpec EffectSame.
Local Unset Implicit Arguments.

Section Spend.
  Context {V K : Type}.
  Notation W := (list (ucall V K)).
  Variable Q : ucall V K -> Prop.

  Lemma within_nil : within (@nil (ucall V K)) 0 0 0 0.
  Proof. repeat split; apply Nat.le_refl. Qed.
  Lemma within_app (a b : W) k1 l1 s1 e1 k2 l2 s2 e2 : within a k1 l1 s1 e1 -> within b k2 l2 s2 e2 ->
    within (a ++ b) (k1 + k2) (l1 + l2) (s1 + s2) (e1 + e2).
  Proof. unfold within, count. rewrite !filter_app, !app_length. lia. Qed.
  Lemma within_le (a : W) k1 l1 s1 e1 k2 l2 s2 e2 : within a k1 l1 s1 e1 -> k1 <= k2 -> l1 <= l2 -> s1 <= s2 -> e1 <= e2 -> within a k2 l2 s2 e2.
  Proof. unfold within. lia. Qed.

  (** In state [s], [m] makes calls allowed by [Q], of each kind at most so many, and its answer satisfies [P]. *)
  Definition Spends {S A} (m : M (W * S) A) (s : S) (nk nl ns ne : nat) (P : A -> S -> Prop) : Prop :=
    forall w, exists tr r s', m (w, s) = (r, (w ++ tr, s')) /\ within tr nk nl ns ne /\ Forall Q tr /\ forall a, r = Ok a -> P a s'.
  Definition Spends0 {A} (m : M W A) (nk nl ns ne : nat) (P : A -> Prop) : Prop :=
    forall w, exists tr r, m w = (r, w ++ tr) /\ within tr nk nl ns ne /\ Forall Q tr /\ forall a, r = Ok a -> P a.

  Lemma spends_bind {S A B} (m : M (W * S) A) (k : A -> M (W * S) B) s P R k1 l1 s1 e1 k2 l2 s2 e2 :
    Spends m s k1 l1 s1 e1 P -> (forall a s', P a s' -> Spends (k a) s' k2 l2 s2 e2 R) ->
    Spends (bind m k) s (k1 + k2) (l1 + l2) (s1 + s2) (e1 + e2) R.
  Proof.
    intros H HK w. destruct (H w) as (tr & r & s' & E & HW & HQ & HP). unfold bind. rewrite E. destruct r as [a|e].
    - destruct (HK a s' (HP a eq_refl) (w ++ tr)) as (tr2 & r2 & s2' & E2 & HW2 & HQ2 & HP2). rewrite E2.
      exists (tr ++ tr2), r2, s2'. rewrite app_assoc. split; [reflexivity|]. split; [apply within_app; assumption|].
      split; [apply Forall_app; auto|exact HP2].
    - exists tr, (Err e), s'. split; [reflexivity|]. split; [eapply within_le; [exact HW| | | |]; lia|]. split; [exact HQ|discriminate].
  Qed.
  Lemma spends0_bind {A B} (m : M W A) (k : A -> M W B) P R k1 l1 s1 e1 k2 l2 s2 e2 :
    Spends0 m k1 l1 s1 e1 P -> (forall a, P a -> Spends0 (k a) k2 l2 s2 e2 R) ->
    Spends0 (bind m k) (k1 + k2) (l1 + l2) (s1 + s2) (e1 + e2) R.
  Proof.
    intros H HK w. destruct (H w) as (tr & r & E & HW & HQ & HP). unfold bind. rewrite E. destruct r as [a|e].
    - destruct (HK a (HP a eq_refl) (w ++ tr)) as (tr2 & r2 & E2 & HW2 & HQ2 & HP2). rewrite E2.
      exists (tr ++ tr2), r2. rewrite app_assoc. split; [reflexivity|]. split; [apply within_app; assumption|].
      split; [apply Forall_app; auto|exact HP2].
    - exists tr, (Err e). split; [reflexivity|]. split; [eapply within_le; [exact HW| | | |]; lia|]. split; [exact HQ|discriminate].
  Qed.
  Lemma spends_le {S A} (m : M (W * S) A) s (P R : A -> S -> Prop) k1 l1 s1 e1 k2 l2 s2 e2 : Spends m s k1 l1 s1 e1 P ->
    k1 <= k2 -> l1 <= l2 -> s1 <= s2 -> e1 <= e2 -> (forall a s', P a s' -> R a s') -> Spends m s k2 l2 s2 e2 R.
  Proof.
    intros H ? ? ? ? HR w. destruct (H w) as (tr & r & s' & E & HW & HQ & HP). exists tr, r, s'. split; [exact E|].
    split; [eapply within_le; eauto|]. split; auto.
  Qed.
  Lemma spends0_le {A} (m : M W A) (P R : A -> Prop) k1 l1 s1 e1 k2 l2 s2 e2 : Spends0 m k1 l1 s1 e1 P ->
    k1 <= k2 -> l1 <= l2 -> s1 <= s2 -> e1 <= e2 -> (forall a, P a -> R a) -> Spends0 m k2 l2 s2 e2 R.
  Proof.
    intros H ? ? ? ? HR w. destruct (H w) as (tr & r & E & HW & HQ & HP). exists tr, r. split; [exact E|].
    split; [eapply within_le; eauto|]. split; auto.
  Qed.
  Lemma spends_own {S A} (m : M S A) s : Spends (own m) s 0 0 0 0 (fun a s' => m s = (Ok a, s')).
  Proof.
    intros w. unfold own, zoom. cbn [fst snd]. destruct (m s) as [r s'] eqn:E. exists [], r, s'. rewrite app_nil_r.
    split; [reflexivity|]. split; [apply within_nil|]. split; [constructor|]. intros a ->. reflexivity.
  Qed.
  Lemma spends_ret {S A} (a : A) (s : S) : Spends (ret a) s 0 0 0 0 (fun b s' => b = a /\ s' = s).
  Proof.
    intros w. exists [], (Ok a), s. rewrite app_nil_r. split; [reflexivity|]. split; [apply within_nil|]. split; [constructor|].
    intros b H. injection H as <-. auto.
  Qed.
  Lemma spends_raise {S A} e (s : S) P : Spends (@raise _ A e) s 0 0 0 0 P.
  Proof. intros w. exists [], (Err e), s. rewrite app_nil_r. split; [reflexivity|]. split; [apply within_nil|]. split; [constructor|]. discriminate. Qed.
  Lemma spends_user {S A} (m : M W A) (s : S) nk nl ns ne P : Spends0 m nk nl ns ne P -> Spends (user m) s nk nl ns ne (fun a s' => P a /\ s' = s).
  Proof.
    intros H w. destruct (H w) as (tr & r & E & HW & HQ & HP). exists tr, r, s. unfold user, zoom. cbn [fst snd]. rewrite E.
    split; [reflexivity|]. split; [exact HW|]. split; [exact HQ|]. auto.
  Qed.
  Lemma spends0_lift {A} (r : res A) : Spends0 (liftr r) 0 0 0 0 (fun a => r = Ok a).
  Proof. intros w. exists [], r. rewrite app_nil_r. split; [reflexivity|]. split; [apply within_nil|]. split; [constructor|auto]. Qed.
  Lemma spends0_ret {A} (a : A) (P : A -> Prop) : P a -> Spends0 (ret a) 0 0 0 0 P.
  Proof.
    intros H w. exists [], (Ok a). rewrite app_nil_r. split; [reflexivity|]. split; [apply within_nil|]. split; [constructor|]. intros b E. injection E as <-. exact H.
  Qed.
  Lemma spends0_noted {A} (c : ucall V K) (a : A) : Q c ->
    Spends0 (noted c a) (if is_key c then 1 else 0) (if is_less c then 1 else 0) (if is_same c then 1 else 0)
      (if is_eq c then 1 else 0 + (if is_vless c then 1 else 0)) (fun b => b = a) \/ is_vless c = true.
  Proof.
    intros H. destruct c; [left|left|left|left|right; reflexivity]; intros w; eexists [_], (Ok a); (split; [reflexivity|]);
      (split; [repeat split; apply Nat.le_refl|]); (split; [constructor; [exact H|constructor]|]); intros b E; injection E as <-; reflexivity.
  Qed.
  Lemma spends0_key x (a : K) : Q (UKey x) -> Spends0 (noted (UKey x) a) 1 0 0 0 (fun b => b = a).
  Proof. intros H. destruct (spends0_noted (UKey x) a H) as [X|X]; [exact X|discriminate]. Qed.
  Lemma spends0_less j k (a : bool) : Q (ULess j k) -> Spends0 (noted (ULess j k) a) 0 1 0 0 (fun b => b = a).
  Proof. intros H. destruct (spends0_noted (ULess j k) a H) as [X|X]; [exact X|discriminate]. Qed.
  Lemma spends0_same j k (a : bool) : Q (USame j k) -> Spends0 (noted (USame j k) a) 0 0 1 0 (fun b => b = a).
  Proof. intros H. destruct (spends0_noted (USame j k) a H) as [X|X]; [exact X|discriminate]. Qed.
  Lemma spends0_eq x y (a : bool) : Q (UEq x y) -> Spends0 (noted (UEq x y) a) 0 0 0 1 (fun b => b = a).
  Proof. intros H. destruct (spends0_noted (UEq x y) a H) as [X|X]; [exact X|discriminate]. Qed.

  Section Bis.
    Variable kltb : K -> K -> bool.
    Notation klt' := (fun j k => noted (ULess j k) (kltb j k)).
    Lemma getn_In {A} (l : list A) i x : getn l i = Ok x -> In x l.
    Proof. unfold getn. destruct (nth_error l i) eqn:E; [|discriminate]. intros H. injection H as <-. eapply nth_error_In; eauto. Qed.
    Lemma spend_left_loop fuel a x : (forall y, In y a -> Q (ULess y x)) -> forall lo hi,
      Spends0 (e_bisect_left_loop klt' fuel a x lo hi) 0 (halvings (hi - lo)) 0 0 (fun _ => True).
    Proof.
      intros HQ. induction fuel as [|f IH]; intros lo hi; cbn [e_bisect_left_loop].
      - eapply spends0_le; [apply (spends0_lift (Err OutOfFuel))|lia|lia|lia|lia|auto].
      - destruct (lo <? hi) eqn:E; [apply Nat.ltb_lt in E|eapply spends0_le; [apply (spends0_ret lo (fun _ => True) I)|lia|lia|lia|lia|auto]].
        rewrite (halvings_half (hi - lo)) by lia. destruct (mid_bounds lo hi E) as [H1 H2]. cbv zeta.
        change (Datatypes.S (halvings ((hi - lo) / 2))) with (0 + (1 + halvings ((hi - lo) / 2))).
        eapply (spends0_bind _ _ _ _ 0 0 0 0 0 _ 0 0); [apply spends0_lift|]. intros y Hy.
        eapply (spends0_bind _ _ _ _ 0 1 0 0 0 _ 0 0); [apply spends0_less; apply HQ; exact (getn_In _ _ _ Hy)|]. intros b _.
        destruct b; (eapply spends0_le; [apply IH|lia|apply halvings_mono; assumption|lia|lia|auto]).
    Qed.
    Lemma spend_right_loop fuel a x : (forall y, In y a -> Q (ULess x y)) -> forall lo hi,
      Spends0 (e_bisect_right_loop klt' fuel a x lo hi) 0 (halvings (hi - lo)) 0 0 (fun _ => True).
    Proof.
      intros HQ. induction fuel as [|f IH]; intros lo hi; cbn [e_bisect_right_loop].
      - eapply spends0_le; [apply (spends0_lift (Err OutOfFuel))|lia|lia|lia|lia|auto].
      - destruct (lo <? hi) eqn:E; [apply Nat.ltb_lt in E|eapply spends0_le; [apply (spends0_ret lo (fun _ => True) I)|lia|lia|lia|lia|auto]].
        rewrite (halvings_half (hi - lo)) by lia. destruct (mid_bounds lo hi E) as [H1 H2]. cbv zeta.
        change (Datatypes.S (halvings ((hi - lo) / 2))) with (0 + (1 + halvings ((hi - lo) / 2))).
        eapply (spends0_bind _ _ _ _ 0 0 0 0 0 _ 0 0); [apply spends0_lift|]. intros y Hy.
        eapply (spends0_bind _ _ _ _ 0 1 0 0 0 _ 0 0); [apply spends0_less; apply HQ; exact (getn_In _ _ _ Hy)|]. intros b _.
        destruct b; (eapply spends0_le; [apply IH|lia|apply halvings_mono; assumption|lia|lia|auto]).
    Qed.
    Lemma spends0_told {A} (m : M W A) nk nl ns ne r : Spends0 m nk nl ns ne (fun _ => True) -> (forall w, fst (m w) = r) ->
      Spends0 m nk nl ns ne (fun a => r = Ok a).
    Proof.
      intros H HF w. destruct (H w) as (tr & r' & E & HW & HQ & _). exists tr, r'. split; [exact E|]. split; [exact HW|]. split; [exact HQ|].
      intros a ->. specialize (HF w). rewrite E in HF. cbn in HF. congruence.
    Qed.
    Lemma klt_answers : answers2 (W:=W) klt' (total2 kltb).
    Proof. intros x y w. reflexivity. Qed.
    Lemma spend_left a x : (forall y, In y a -> Q (ULess y x)) ->
      Spends0 (e_bisect_left klt' a x) 0 (halvings (length a)) 0 0 (fun i => bisect_left (total2 kltb) a x = Ok i).
    Proof.
      intros HQ. apply spends0_told; [|intros w; apply (free_left (total2 kltb) klt' klt_answers)].
      unfold e_bisect_left. eapply spends0_le; [apply spend_left_loop; exact HQ|lia|rewrite Nat.sub_0_r; lia|lia|lia|auto].
    Qed.
    Lemma spend_right a x : (forall y, In y a -> Q (ULess x y)) ->
      Spends0 (e_bisect_right klt' a x) 0 (halvings (length a)) 0 0 (fun i => bisect_right (total2 kltb) a x = Ok i).
    Proof.
      intros HQ. apply spends0_told; [|intros w; apply (free_right (total2 kltb) klt' klt_answers)].
      unfold e_bisect_right. eapply spends0_le; [apply spend_right_loop; exact HQ|lia|rewrite Nat.sub_0_r; lia|lia|lia|auto].
    Qed.
  End Bis.
End Spend.

Section Lookup.
  Context {V K : Type}.
  Notation W := (list (ucall V K)).
  Notation SKL := (skl V K).
  Variable srt : sorting W.
  Variable key : V -> K.
  Variables kltb keqb : K -> K -> bool.
  Variables vltb eqb : V -> V -> bool.
  Variable dflt : nat.
  Notation kf := (total1 key).
  Notation klt' := (fun j k => noted (ULess j k) (kltb j k) : M W bool).
  Notation keq' := (fun j k => noted (USame j k) (keqb j k) : M W bool).
  Notation eq' := (fun x y => noted (UEq x y) (eqb x y) : M W bool).
  Notation kf' := (fun x => noted (UKey x) (key x) : M W K).

  Lemma skipn_In {A} (l : list A) j x : In x (skipn j l) -> In x l.
  Proof. intros H. rewrite <- (firstn_skipn j l). apply in_or_app. auto. Qed.
  Lemma mapR_total m : mapR kf m = Ok (map key m).
  Proof. induction m as [|x m IH]; [reflexivity|cbn; rewrite IH; reflexivity]. Qed.
  Lemma row_in (s : SKL) rows r : Shape0 kf s rows -> In r rows -> r_k r = map key (r_l r) /\ incl (r_l r) (contents (kc s)) /\ In (r_m r) (r_k r).
  Proof.
    intros H Hr. pose proof (sh_rows _ _ _ H) as HR. rewrite Forall_forall in HR. destruct (HR r Hr) as [H1 H2].
    split; [rewrite mapR_total in H1; congruence|]. split.
    - unfold contents. rewrite (sh_lists _ _ _ H). intros x Hx. apply in_concat. exists (r_l r). split; [apply in_map; exact Hr|exact Hx].
    - apply getlast_Ok in H2 as [a ->]. apply in_or_app. right. left. reflexivity.
  Qed.
  Lemma maxes_in (s : SKL) rows k : Shape0 kf s rows -> In k (maxes (kc s)) -> In k (map key (contents (kc s))).
  Proof.
    intros H Hin. rewrite (sh_maxes _ _ _ H) in Hin. apply in_map_iff in Hin as (r & <- & Hr).
    destruct (row_in s rows r H Hr) as (E & HI & Hm). rewrite E in Hm. revert Hm. apply incl_map. exact HI.
  Qed.
  Lemma keys_in (s : SKL) rows p ks k : Shape0 kf s rows -> getn (keys s) p = Ok ks -> In k ks -> In k (map key (contents (kc s))).
  Proof.
    intros H Hg Hin. apply getn_In in Hg. rewrite (sh_keys _ _ _ H) in Hg. apply in_map_iff in Hg as (r & <- & Hr).
    destruct (row_in s rows r H Hr) as (E & HI & Hm). rewrite E in Hin. revert Hin. apply incl_map. exact HI.
  Qed.

  Lemma spends0_chain (Q : ucall V K -> Prop) {A B} (m : M W A) (k : A -> M W B) P R a b c d n1 n2 : Spends0 Q m 0 0 a b P ->
    (forall x, P x -> Spends0 Q (k x) 0 0 c d R) -> a + c <= n1 -> b + d <= n2 -> Spends0 Q (bind m k) 0 0 n1 n2 R.
  Proof. intros H HK H1 H2. eapply spends0_le; [eapply spends0_bind; eauto| | | | |]; auto. Qed.
  (** The values tied with [v] among [l]. *)
  Definition tied (v x : V) : bool := keqb (key x) (key v).
  Lemma scan_spend (s : SKL) rows v : Shape0 kf s rows -> forall fuel p i j l,
    Locate (lists (kc s)) p i j -> getn (lists (kc s)) p = Ok l ->
    Spends0 (about key keqb (contents (kc s)) v) (e_scan_loop eq' keq' fuel s (key v) v p i (length l))
      0 0 (count (tied v) (skipn j (contents (kc s))) + 1) (count (tied v) (skipn j (contents (kc s)))) (fun _ => True).
  Proof.
    intros H. induction fuel as [|fuel IH]; intros p i j l HL Hg; cbn [e_scan_loop].
    { eapply spends0_le; [apply (spends0_lift _ (Err OutOfFuel))|lia|lia|lia|lia|auto]. }
    destruct (locate_row kf s rows p i j H HL) as (ks & l' & x & k & H1 & H2 & H3 & H4 & H5 & H6 & H7 & rest & E1 & E2).
    assert (l' = l) by congruence. subst l'. injection H5 as <-.
    assert (Hin : In x (contents (kc s))) by (apply (skipn_In _ j); rewrite E1; left; reflexivity).
    rewrite E1. unfold count at 1 2. cbn [filter]. change (tied v x) with (keqb (key x) (key v)).
    eapply (spends0_chain _ _ _ _ _ 0 0); [apply spends0_lift| |apply Nat.le_refl|apply Nat.le_refl]. intros ks' Hks. rewrite H1 in Hks. injection Hks as <-.
    eapply (spends0_chain _ _ _ _ _ 0 0); [apply spends0_lift| |apply Nat.le_refl|apply Nat.le_refl]. intros k' Hk. rewrite H3 in Hk. injection Hk as <-.
    set (T := length (filter (tied v) rest)). eapply (spends0_chain _ _ _ _ _ 1 0 (if keqb (key x) (key v) then S T else 0) (if keqb (key x) (key v) then S T else 0)); [apply spends0_same; split; [reflexivity|apply in_map; exact Hin]| |destruct (keqb _ _); cbn [length]; lia|destruct (keqb _ _); cbn [length]; lia].
    intros same ->. destruct (keqb (key x) (key v)) eqn:Ek; cbn [negb].
    2:{ eapply spends0_le; [apply (spends0_ret _ _ (fun _ => True) I)|lia|lia|lia|lia|auto]. }
    cbn [length].
    eapply (spends0_chain _ _ _ _ _ 0 0); [apply spends0_lift| |apply Nat.le_refl|apply Nat.le_refl]. intros l0 Hl0. rewrite H2 in Hl0. injection Hl0 as <-.
    eapply (spends0_chain _ _ _ _ _ 0 0); [apply spends0_lift| |apply Nat.le_refl|apply Nat.le_refl]. intros x' Hx. rewrite H4 in Hx. injection Hx as <-.
    eapply (spends0_chain _ _ _ _ _ 0 1 (T + 1) T); [apply spends0_eq; split; [reflexivity|split; [exact Hin|exact Ek]]| |lia|lia].
    intros f ->. destruct (eqb x v).
    { eapply spends0_le; [apply (spends0_ret _ _ (fun _ => True) I)|lia|lia|lia|lia|auto]. }
    cbv zeta.
    destruct (locate_next kf s rows p i j l H HL Hg) as [[Ha Hb]|[(Ha & Hb & Hc)|(Ha & Hb & Hc & ks' & l' & Hd & He & Hl)]].
    - destruct (Nat.eqb_spec (i + 1) (length l)); [lia|]. specialize (IH p (i + 1) (S j) l Hb Hg). rewrite E2 in IH. exact IH.
    - destruct (Nat.eqb_spec (i + 1) (length l)); [|lia]. destruct (Nat.eqb_spec (p + 1) (length (keys s))); [|lia].
      eapply spends0_le; [apply (spends0_ret _ _ (fun _ => True) I)|lia|lia|lia|lia|auto].
    - destruct (Nat.eqb_spec (i + 1) (length l)); [|lia]. destruct (Nat.eqb_spec (p + 1) (length (keys s))); [lia|].
      eapply (spends0_chain _ _ _ _ _ 0 0); [apply spends0_lift| |apply Nat.le_refl|apply Nat.le_refl]. intros ks2 Hks2. rewrite Hd in Hks2. injection Hks2 as <-. rewrite Hl.
      specialize (IH (p + 1) 0 (S j) l' Hc He). rewrite E2 in IH. exact IH.
  Qed.
  Lemma count_spend (s : SKL) rows v : Shape0 kf s rows -> forall fuel p i j l total,
    Locate (lists (kc s)) p i j -> getn (lists (kc s)) p = Ok l ->
    Spends0 (about key keqb (contents (kc s)) v) (e_count_loop eq' keq' fuel s (key v) v p i (length l) total)
      0 0 (count (tied v) (skipn j (contents (kc s))) + 1) (count (tied v) (skipn j (contents (kc s)))) (fun _ => True).
  Proof.
    intros H. induction fuel as [|fuel IH]; intros p i j l total HL Hg; cbn [e_count_loop].
    { eapply spends0_le; [apply (spends0_lift _ (Err OutOfFuel))|lia|lia|lia|lia|auto]. }
    destruct (locate_row kf s rows p i j H HL) as (ks & l' & x & k & H1 & H2 & H3 & H4 & H5 & H6 & H7 & rest & E1 & E2).
    assert (l' = l) by congruence. subst l'. injection H5 as <-.
    assert (Hin : In x (contents (kc s))) by (apply (skipn_In _ j); rewrite E1; left; reflexivity).
    rewrite E1. unfold count at 1 2. cbn [filter]. change (tied v x) with (keqb (key x) (key v)).
    eapply (spends0_chain _ _ _ _ _ 0 0); [apply spends0_lift| |apply Nat.le_refl|apply Nat.le_refl]. intros ks' Hks. rewrite H1 in Hks. injection Hks as <-.
    eapply (spends0_chain _ _ _ _ _ 0 0); [apply spends0_lift| |apply Nat.le_refl|apply Nat.le_refl]. intros k' Hk. rewrite H3 in Hk. injection Hk as <-.
    set (T := length (filter (tied v) rest)). eapply (spends0_chain _ _ _ _ _ 1 0 (if keqb (key x) (key v) then S T else 0) (if keqb (key x) (key v) then S T else 0)); [apply spends0_same; split; [reflexivity|apply in_map; exact Hin]| |destruct (keqb _ _); cbn [length]; lia|destruct (keqb _ _); cbn [length]; lia].
    intros same ->. destruct (keqb (key x) (key v)) eqn:Ek; cbn [negb].
    2:{ eapply spends0_le; [apply (spends0_ret _ _ (fun _ => True) I)|lia|lia|lia|lia|auto]. }
    cbn [length].
    eapply (spends0_chain _ _ _ _ _ 0 0); [apply spends0_lift| |apply Nat.le_refl|apply Nat.le_refl]. intros l0 Hl0. rewrite H2 in Hl0. injection Hl0 as <-.
    eapply (spends0_chain _ _ _ _ _ 0 0); [apply spends0_lift| |apply Nat.le_refl|apply Nat.le_refl]. intros x' Hx. rewrite H4 in Hx. injection Hx as <-.
    eapply (spends0_chain _ _ _ _ _ 0 1 (T + 1) T); [apply spends0_eq; split; [reflexivity|split; [exact Hin|exact Ek]]| |lia|lia].
    intros f ->. cbv zeta.
    destruct (locate_next kf s rows p i j l H HL Hg) as [[Ha Hb]|[(Ha & Hb & Hc)|(Ha & Hb & Hc & ks' & l' & Hd & He & Hl)]].
    - destruct (Nat.eqb_spec (i + 1) (length l)); [lia|]. specialize (IH p (i + 1) (S j) l (if eqb x v then total + 1 else total) Hb Hg). rewrite E2 in IH. exact IH.
    - destruct (Nat.eqb_spec (i + 1) (length l)); [|lia]. destruct (Nat.eqb_spec (p + 1) (length (keys s))); [|lia].
      eapply spends0_le; [apply (spends0_ret _ _ (fun _ => True) I)|lia|lia|lia|lia|auto].
    - destruct (Nat.eqb_spec (i + 1) (length l)); [|lia]. destruct (Nat.eqb_spec (p + 1) (length (keys s))); [lia|].
      eapply (spends0_chain _ _ _ _ _ 0 0); [apply spends0_lift| |apply Nat.le_refl|apply Nat.le_refl]. intros ks2 Hks2. rewrite Hd in Hks2. injection Hks2 as <-. rewrite Hl.
      specialize (IH (p + 1) 0 (S j) l' (if eqb x v then total + 1 else total) Hc He). rewrite E2 in IH. exact IH.
  Qed.

  Lemma spends_chain (Q : ucall V K -> Prop) {S A B} (m : M (W * S) A) (k : A -> M (W * S) B) s P R k1 l1 a b k2 l2 c d n1 n2 n3 n4 :
    Spends Q m s k1 l1 a b P -> (forall x s', P x s' -> Spends Q (k x) s' k2 l2 c d R) -> k1 + k2 <= n1 -> l1 + l2 <= n2 -> a + c <= n3 -> b + d <= n4 ->
    Spends Q (bind m k) s n1 n2 n3 n4 R.
  Proof. intros H HK H1 H2 H3 H4. eapply spends_le; [eapply spends_bind; eauto| | | | |]; auto. Qed.
  (** A step that calls nothing. *)
  Lemma spends_free (Q : ucall V K -> Prop) {S A B} (m : M (W * S) A) (k : A -> M (W * S) B) s P R n1 n2 n3 n4 :
    Spends Q m s 0 0 0 0 P -> (forall x s', P x s' -> Spends Q (k x) s' n1 n2 n3 n4 R) -> Spends Q (bind m k) s n1 n2 n3 n4 R.
  Proof. intros H HK. exact (spends_bind Q m k s P R 0 0 0 0 n1 n2 n3 n4 H HK). Qed.
  Lemma spends_inner (Q : ucall V K -> Prop) {A} (m : M (core V K) A) (s : SKL) :
    Spends Q (inner srt klt' kf' m) s 0 0 0 0 (fun a s' => oncore (skl_vt (total2 kltb) kf) m s = (Ok a, s')).
  Proof.
    intros w. unfold inner, oncore, zoom, ek_vt, skl_vt. cbn [vt_get vt_put fst snd]. destruct (m (kc s)) as [r c]. exists [], r, (set_kc c s).
    rewrite app_nil_r. split; [reflexivity|]. split; [apply within_nil|]. split; [constructor|]. intros a ->. reflexivity.
  Qed.
  Ltac nothing := first [eapply spends_le; [apply (spends_raise _ _ _ (fun _ _ => False))|lia|lia|lia|lia|intros ? ? []]
                        |eapply spends_le; [apply spends_ret|lia|lia|lia|lia|auto; fail]].
  Lemma index_spend rows v start stop : forall fuel (s : SKL) p i j l, Shape kf s -> Shape0 kf s rows ->
    Locate (lists (kc s)) p i j -> getn (lists (kc s)) p = Ok l ->
    Spends (about key keqb (contents (kc s)) v) (e_index_loop srt eq' klt' keq' kf' fuel (key v) v start stop p i (length l)) s
      0 0 (count (tied v) (skipn j (contents (kc s))) + 1) (count (tied v) (skipn j (contents (kc s)))) (fun _ _ => True).
  Proof.
    induction fuel as [|fuel IH]; intros s p i j l HS H HL Hg; cbn [e_index_loop]; [nothing|].
    destruct (locate_row kf s rows p i j H HL) as (ks & l' & x & k & H1 & H2 & H3 & H4 & H5 & H6 & H7 & rest & E1 & E2).
    assert (l' = l) by congruence. subst l'. injection H5 as <-.
    assert (Hin : In x (contents (kc s))) by (apply (skipn_In _ j); rewrite E1; left; reflexivity).
    rewrite E1. unfold count at 1 2. cbn [filter]. change (tied v x) with (keqb (key x) (key v)).
    eapply spends_free; [apply spends_own|]. intros s0 s1 E. injection E as <- <-.
    eapply spends_free; [apply spends_own|]. intros ks0 s1 E. unfold liftr in E. rewrite H1 in E. injection E as <- <-.
    eapply spends_free; [apply spends_own|]. intros k0 s1 E. unfold liftr in E. rewrite H3 in E. injection E as <- <-.
    set (T := length (filter (tied v) rest)).
    eapply (spends_chain _ _ _ _ _ _ 0 0 1 0 0 0 (if keqb (key x) (key v) then S T else 0) (if keqb (key x) (key v) then S T else 0));
      [apply spends_user, spends0_same; split; [reflexivity|apply in_map; exact Hin]| |lia|lia|destruct (keqb _ _); cbn [length]; lia|destruct (keqb _ _); cbn [length]; lia].
    intros same s1 [-> ->]. destruct (keqb (key x) (key v)) eqn:Ek; cbn [negb]; [|nothing].
    eapply spends_free; [apply spends_own|]. intros l0 s1 E. unfold liftr in E. rewrite H2 in E. injection E as <- <-.
    eapply spends_free; [apply spends_own|]. intros x0 s1 E. unfold liftr in E. rewrite H4 in E. injection E as <- <-.
    eapply (spends_chain _ _ _ _ _ _ 0 0 0 1 0 0 (T + 1) T);
      [apply spends_user, spends0_eq; split; [reflexivity|split; [exact Hin|exact Ek]]| |lia|lia|lia|lia].
    intros f s1 [-> ->]. cbv zeta.
    match goal with |- Spends _ (if _ then _ else ?C) _ _ _ _ _ _ => set (cont := C) end.
    assert (Cont : forall s1, ktouch s s1 -> Spends (about key keqb (contents (kc s)) v) cont s1 0 0 (T + 1) T (fun _ _ => True)).
    { intros s1 T1. pose proof (ktouch_shape kf _ _ T1 HS) as HS1. pose proof (ktouch_shape0 kf _ _ _ T1 H) as H01.
      pose proof (ktouch_contents _ _ T1) as HCs. pose proof (ktouch_lists _ _ T1) as HLs. destruct T1 as [HK1 _]. unfold cont.
      destruct (locate_next kf s rows p i j l H HL Hg) as [[Ha Hb]|[(Ha & Hb & Hc)|(Ha & Hb & Hc & ks' & l' & Hd & He & Hl)]].
      - destruct (Nat.eqb_spec (i + 1) (length l)); [lia|].
        specialize (IH s1 p (i + 1) (S j) l HS1 H01). rewrite HLs, HCs, E2 in IH. exact (IH Hb Hg).
      - destruct (Nat.eqb_spec (i + 1) (length l)); [|lia]. destruct (Nat.eqb_spec (p + 1) (length (keys s))); [|lia]. nothing.
      - destruct (Nat.eqb_spec (i + 1) (length l)); [|lia]. destruct (Nat.eqb_spec (p + 1) (length (keys s))); [lia|].
        eapply spends_free; [apply spends_own|]. intros ks2 s2 E. unfold liftr in E. rewrite Hd in E. injection E as <- <-. rewrite Hl.
        specialize (IH s1 (p + 1) 0 (S j) l' HS1 H01). rewrite HLs, HCs, E2 in IH. exact (IH Hc He). }
    destruct (eqb x v); [|apply Cont; apply (ktouch_refl kf); exact HS].
    eapply spends_free; [apply spends_inner|]. intros q s1 E.
    destruct (kloc_ok (total2 kltb) kf s p i j HS (locate_bnd _ _ _ _ HL)) as (s1' & Hl & T1). rewrite Hl in E. injection E as -> ->.
    destruct (_ && _); [nothing|]. destruct (_ <? _)%Z; [nothing|]. apply Cont. exact T1.
  Qed.

  Section At.
    Variable s : SKL.
    Hypothesis HS : Shape kf s.
    Notation l := (contents (kc s)).
    Lemma top_halvings : is_nil (maxes (kc s)) = false -> halvings (length (maxes (kc s))) = 1 + Nat.log2 (length (maxes (kc s))).
    Proof. intros H. destruct (maxes (kc s)); [discriminate|reflexivity]. Qed.
    Lemma both_halvings pos ks : is_nil (maxes (kc s)) = false -> getn (keys s) pos = Ok ks ->
      halvings (length (maxes (kc s))) + halvings (length ks) <= Nat.log2 (length l) + 6.
    Proof.
      intros Hn Hg. rewrite (top_halvings Hn). pose proof (part_cost _ _ _ Hg). pose proof (shape_width kf s HS) as Hw. unfold kwidth in Hw. unfold contents. lia.
    Qed.
    Lemma one_halvings : is_nil (maxes (kc s)) = false -> halvings (length (maxes (kc s))) <= Nat.log2 (length l) + 6.
    Proof. intros Hn. rewrite (top_halvings Hn). pose proof (shape_width kf s HS) as Hw. unfold kwidth in Hw. unfold contents. lia. Qed.

    (** A search for the place of [k]: [bis] on the maxes, then on one list of keys. *)
    Lemma place_spend (Q : ucall V K -> Prop) (right : bool) k {A} (rest : nat -> list K -> nat -> M (W * SKL) A) ns ne R :
      (forall y, In y (map key l) -> Q (if right then ULess k y else ULess y k)) -> is_nil (maxes (kc s)) = false ->
      (forall pos ks idx, (if right then bisect_right (total2 kltb) else bisect_left (total2 kltb)) (maxes (kc s)) k = Ok pos -> pos <> length (maxes (kc s)) ->
         getn (keys s) pos = Ok ks -> (if right then bisect_right (total2 kltb) else bisect_left (total2 kltb)) ks k = Ok idx ->
         Spends Q (rest pos ks idx) s 0 0 ns ne R) ->
      forall again, (forall pos, pos = length (maxes (kc s)) -> Spends Q (again pos) s 0 0 ns ne R) ->
      Spends Q (pos <- user ((if right then e_bisect_right klt' else e_bisect_left klt') (maxes (kc s)) k) ;;
                if pos =? length (maxes (kc s)) then again pos
                else ks <- own (liftr (getn (keys s) pos)) ;;
                     idx <- user ((if right then e_bisect_right klt' else e_bisect_left klt') ks k) ;; rest pos ks idx) s
        0 (Nat.log2 (length l) + 6) ns ne R.
    Proof.
      intros HQ Hn Hrest again Hagain. destruct HS as (rows & H & _).
      pose proof (one_halvings Hn) as B1.
      eapply (spends_chain _ _ _ _ _ _ 0 (halvings (length (maxes (kc s)))) 0 0 0 (Nat.log2 (length l) + 6 - halvings (length (maxes (kc s)))) ns ne);
        [apply spends_user|..]; [|intros pos s1 [Hpos ->]|lia|lia|lia|lia].
      { instantiate (1 := fun pos => (if right then bisect_right (total2 kltb) else bisect_left (total2 kltb)) (maxes (kc s)) k = Ok pos).
        destruct right; [apply spend_right|apply spend_left]; intros y Hy; apply HQ; apply (maxes_in s rows); assumption. }
      destruct (Nat.eqb_spec pos (length (maxes (kc s)))) as [Hp|Hp].
      { eapply spends_le; [apply Hagain; exact Hp|lia|lia|lia|lia|auto]. }
      eapply spends_free; [apply spends_own|]. intros ks s1 E. unfold liftr in E. injection E as Hks <-.
      pose proof (both_halvings pos ks Hn Hks) as B2.
      eapply (spends_chain _ _ _ _ _ _ 0 (halvings (length ks)) 0 0 0 0 ns ne); [apply spends_user|..]; [|intros idx s1 [Hidx ->]|lia|lia|lia|lia].
      { instantiate (1 := fun idx => (if right then bisect_right (total2 kltb) else bisect_left (total2 kltb)) ks k = Ok idx).
        destruct right; [apply spend_right|apply spend_left]; intros y Hy; apply HQ; apply (keys_in s rows pos ks); assumption. }
      exact (Hrest pos ks idx Hpos Hp Hks Hidx).
    Qed.

    (** *** Lookups *)
    Variable v : V.
    Notation Q := (about key keqb l v).
    Lemma count_skip j : count (tied v) (skipn j l) <= count (tied v) l.
    Proof. unfold count. rewrite <- (firstn_skipn j l) at 2. rewrite filter_app, app_length. lia. Qed.
    Lemma at_place pos ks idx rows : Shape0 kf s rows -> bisect_left (total2 kltb) (maxes (kc s)) (key v) = Ok pos -> pos <> length (maxes (kc s)) ->
      getn (keys s) pos = Ok ks -> bisect_left (total2 kltb) ks (key v) = Ok idx ->
      exists lp j, getn (lists (kc s)) pos = Ok lp /\ length ks = length lp /\ Locate (lists (kc s)) pos idx j.
    Proof.
      intros H H1 H2 H3 H4. rewrite bisect_left_bs in H1, H4.
      destruct (search_gen kf _ s rows pos H H1 H2) as (ks' & lp & E1 & E2 & E3 & E4). assert (ks' = ks) by congruence. subst ks'.
      destruct (E4 idx H4) as [j HL]. exists lp, j. auto.
    Qed.
    Lemma less_about y : In y (map key l) -> Q (ULess y (key v)).
    Proof. intros H. split; [reflexivity|exact H]. Qed.

    Lemma find_spend : Spends Q (ek_find eq' klt' keq' kf' v) s 1 (Nat.log2 (length l) + 6) (count (tied v) l + 1) (count (tied v) l) (fun _ _ => True).
    Proof.
      unfold ek_find. eapply spends_free; [apply spends_own|]. intros s0 s1 E. injection E as <- <-.
      destruct (is_nil (maxes (kc s))) eqn:Hn; [nothing|].
      eapply (spends_chain _ _ _ _ _ _ 1 0 0 0 0 _ _ _); [apply spends_user, spends0_key; reflexivity| |lia|apply Nat.le_refl|apply Nat.le_refl|apply Nat.le_refl].
      intros k s1 [-> ->].
      refine (place_spend Q false (key v) (fun pos ks idx => user (e_scan_loop eq' keq' (scan_fuel s) s (key v) v pos idx (length ks))) _ _ _ less_about Hn _ (fun _ => ret None) _).
      - intros pos ks idx H1 H2 H3 H4. destruct HS as (rows & H & _). destruct (at_place pos ks idx rows H H1 H2 H3 H4) as (lp & j & E1 & E2 & E3). rewrite E2.
        pose proof (count_skip j).
        eapply spends_le; [apply spends_user; apply (scan_spend s rows v H _ pos idx j lp E3 E1)|lia|lia|lia|lia|auto].
      - intros pos _. nothing.
    Qed.
    Lemma ekcount_spend : Spends Q (ek_count eq' klt' keq' kf' v) s 1 (Nat.log2 (length l) + 6) (count (tied v) l + 1) (count (tied v) l) (fun _ _ => True).
    Proof.
      unfold ek_count. eapply spends_free; [apply spends_own|]. intros s0 s1 E. injection E as <- <-.
      destruct (is_nil (maxes (kc s))) eqn:Hn; [nothing|].
      eapply (spends_chain _ _ _ _ _ _ 1 0 0 0 0 _ _ _); [apply spends_user, spends0_key; reflexivity| |lia|apply Nat.le_refl|apply Nat.le_refl|apply Nat.le_refl].
      intros k s1 [-> ->].
      refine (place_spend Q false (key v) (fun pos ks idx => user (e_count_loop eq' keq' (scan_fuel s) s (key v) v pos idx (length ks) 0)) _ _ _ less_about Hn _ (fun _ => ret 0) _).
      - intros pos ks idx H1 H2 H3 H4. destruct HS as (rows & H & _). destruct (at_place pos ks idx rows H H1 H2 H3 H4) as (lp & j & E1 & E2 & E3). rewrite E2.
        pose proof (count_skip j).
        eapply spends_le; [apply spends_user; apply (count_spend s rows v H _ pos idx j lp 0 E3 E1)|lia|lia|lia|lia|auto].
      - intros pos _. nothing.
    Qed.
    Lemma ekindex_spend a b : Spends Q (ek_index srt eq' klt' keq' kf' v a b) s 1 (Nat.log2 (length l) + 6) (count (tied v) l + 1) (count (tied v) l) (fun _ _ => True).
    Proof.
      unfold ek_index. eapply spends_free; [apply spends_own|]. intros s0 s1 E. injection E as <- <-.
      destruct (len (kc s) =? 0) eqn:H0; [nothing|]. cbv zeta. destruct (_ <=? _)%Z; [nothing|].
      assert (Hn : is_nil (maxes (kc s)) = false).
      { destruct HS as (rows & H & HL). destruct (is_nil (maxes (kc s))) eqn:Hn; [|reflexivity]. pose proof (shape_nil _ _ _ H Hn) as ->.
        unfold contents in HL. rewrite (sh_lists _ _ _ H) in HL. cbn in HL. rewrite HL in H0. discriminate. }
      eapply (spends_chain _ _ _ _ _ _ 1 0 0 0 0 _ _ _); [apply spends_user, spends0_key; reflexivity| |lia|apply Nat.le_refl|apply Nat.le_refl|apply Nat.le_refl].
      intros k s1 [-> ->].
      refine (place_spend Q false (key v) (fun pos ks idx => e_index_loop srt eq' klt' keq' kf' (scan_fuel s) (key v) v _ _ pos idx (length ks)) _ _ _ less_about Hn _ (fun _ => raise ValueError) _).
      - intros pos ks idx H1 H2 H3 H4. destruct HS as (rows & H & HL). destruct (at_place pos ks idx rows H H1 H2 H3 H4) as (lp & j & E1 & E2 & E3). rewrite E2.
        pose proof (count_skip j).
        eapply spends_le; [apply (index_spend rows v _ _ _ s pos idx j lp HS H E3 E1)|lia|lia|lia|lia|auto].
      - intros pos _. nothing.
    Qed.
  End At.

  (** *** Places *)
  Section Places.
    Variable s : SKL.
    Hypothesis HS : Shape kf s.
    Notation l := (contents (kc s)).
    Variables (vs : list V) (ks : list K).
    Notation Q := (between_keys key l vs ks).
    Notation B := (Nat.log2 (length l) + 6).
    Lemma less_between (right : bool) k y : In k (ks ++ map key vs) -> In y (map key l) -> Q (if right then ULess k y else ULess y k).
    Proof. intros H1 H2. destruct right; cbn; auto. Qed.
    Lemma rank_spend (right : bool) k : In k (ks ++ map key vs) ->
      Spends Q (ek_rank_key srt klt' kf' (if right then e_bisect_right klt' else e_bisect_left klt') k) s 0 B 0 0 (fun _ _ => True).
    Proof.
      intros Hk. unfold ek_rank_key. eapply spends_free; [apply spends_own|]. intros s0 s1 E. injection E as <- <-.
      destruct (is_nil (maxes (kc s))) eqn:Hn; [nothing|].
      refine (place_spend s HS Q right k (fun pos _ idx => inner srt klt' kf' (loc pos idx)) 0 0 _ (fun y => less_between right k y Hk) Hn _ (fun _ => ret (len (kc s))) _).
      - intros. eapply spends_le; [apply spends_inner|lia|lia|lia|lia|auto].
      - intros. nothing.
    Qed.
    Lemma add_spend v : In v vs -> Spends Q (ek_add klt' kf' v) s 1 B 0 0 (fun _ _ => True).
    Proof.
      intros Hv. unfold ek_add.
      eapply (spends_chain _ _ _ _ _ _ 1 0 0 0 0 _ _ _); [apply spends_user, spends0_key; exact Hv| |lia|apply Nat.le_refl|apply Nat.le_refl|apply Nat.le_refl].
      intros k s1 [-> ->]. eapply spends_free; [apply spends_own|]. intros s0 s1 E. injection E as <- <-.
      eapply (spends_chain _ _ _ _ (fun _ _ => True) _ 0 B 0 0 0 0 0 0); [| |lia|lia|lia|lia].
      - destruct (is_nil (maxes (kc s))) eqn:Hn.
        { eapply spends_le; [apply spends_own|lia|lia|lia|lia|intros; exact I]. }
        refine (place_spend s HS Q true (key v) (fun pos _ idx => _) 0 0 _ _ Hn _ (fun pos => _) _).
        + intros y Hy. apply (less_between true); [apply in_or_app; right; apply in_map; exact Hv|exact Hy].
        + intros. do 2 (eapply spends_free; [apply spends_own|intros ? ? _]). eapply spends_le; [apply spends_own|lia|lia|lia|lia|auto].
        + intros. cbv zeta. do 3 (eapply spends_free; [apply spends_own|intros ? ? _]). eapply spends_le; [apply spends_own|lia|lia|lia|lia|auto].
      - intros u s1 _. eapply spends_le; [apply spends_own|lia|lia|lia|lia|auto].
    Qed.
    Lemma irange_spend mn mx a b r : (forall k, mn = Some k \/ mx = Some k -> In k (ks ++ map key vs)) ->
      Spends Q (ek_irange_key klt' mn mx a b r) s 0 ((match mn with Some _ => B | None => 0 end) + (match mx with Some _ => B | None => 0 end)) 0 0 (fun _ _ => True).
    Proof.
      intros Hk. unfold ek_irange_key. eapply spends_free; [apply spends_own|]. intros s0 s1 E. injection E as <- <-. cbv zeta.
      destruct (is_nil (maxes (kc s))) eqn:Hn; [nothing|].
      eapply (spends_chain _ _ _ _ (fun _ s' => s' = s) _ 0 (match mn with Some _ => B | None => 0 end) 0 0 0 (match mx with Some _ => B | None => 0 end) 0 0); [| |lia|lia|lia|lia].
      - destruct mn as [m|]; [|eapply spends_le; [apply spends_ret|lia|lia|lia|lia|]; intros ? ? [_ ->]; reflexivity].
        replace (if a then e_bisect_left klt' else e_bisect_right klt') with (if negb a then e_bisect_right klt' else e_bisect_left klt') by (destruct a; reflexivity).
        refine (place_spend s HS Q (negb a) m (fun pos _ idx => ret (Some (pos, idx))) 0 0 _ _ Hn _ (fun _ => ret None) _).
        + intros y Hy. apply less_between; [apply Hk; auto|exact Hy].
        + intros. eapply spends_le; [apply spends_ret|lia|lia|lia|lia|]. intros ? ? [_ ->]. reflexivity.
        + intros. eapply spends_le; [apply spends_ret|lia|lia|lia|lia|]. intros ? ? [_ ->]. reflexivity.
      - intros [[p i]|] s1 ->; [|nothing].
        eapply (spends_chain _ _ _ _ (fun _ s' => s' = s) _ 0 (match mx with Some _ => B | None => 0 end) 0 0 0 0 0 0); [| |lia|lia|lia|lia].
        + destruct mx as [m|].
          * refine (place_spend s HS Q b m (fun pos _ idx => ret (pos, idx)) 0 0 _ _ Hn _ (fun pos => _) _).
            -- intros y Hy. apply less_between; [apply Hk; auto|exact Hy].
            -- intros. eapply spends_le; [apply spends_ret|lia|lia|lia|lia|]. intros ? ? [_ ->]. reflexivity.
            -- intros. cbv zeta. eapply spends_free; [apply spends_own|]. intros ? ? E. injection E as _ <-.
               eapply spends_le; [apply spends_ret|lia|lia|lia|lia|]. intros ? ? [_ ->]. reflexivity.
          * cbv zeta. eapply spends_free; [apply spends_own|]. intros ? ? E. injection E as _ <-.
            eapply spends_le; [apply spends_ret|lia|lia|lia|lia|]. intros ? ? [_ ->]. reflexivity.
        + intros mx' s1 ->. eapply spends_le; [apply spends_own|lia|lia|lia|lia|auto].
    Qed.
    Lemma keyopt_spend (o : option V) : (forall v, o = Some v -> In v vs) ->
      Spends Q (user (e_key_opt kf' o)) s (match o with Some _ => 1 | None => 0 end) 0 0 0 (fun k s' => k = option_map key o /\ s' = s).
    Proof.
      intros Hv. apply spends_user. destruct o as [v|]; cbn [e_key_opt option_map].
      - eapply (spends0_bind _ _ _ _ _ 1 0 0 0 0 0 0 0); [apply spends0_key; apply Hv; reflexivity|]. intros k ->. apply spends0_ret. reflexivity.
      - apply spends0_ret. reflexivity.
    Qed.
  End Places.
End Lookup.

(** * SortedKeyList: lookups (proofs) *)
From Verif Require Import PyBase BaseFacts Spec SpecFacts SliceFacts Model IndexFacts Shape CoreFacts VtFacts KeyFacts.
From Coq Require Import Sorting.Permutation Sorting.Sorted.
Local Unset Implicit Arguments.

(** [s'] is [s] up to the positional index. *)
Definition ktouch {V K} (s s' : skl V K) : Prop := keys s' = keys s /\ touch (kc s) (kc s').

Section Order_free.
  Context {V K : Type}.
  Variable eq : V -> V -> res bool.
  Variables klt keq : K -> K -> res bool.
  Variable kf : V -> res K.
  Notation SKL := (skl V K).
  Implicit Types s : SKL.

  Lemma ktouch_set s s' : ktouch s s' -> s' = set_kc (kc s') s.
  Proof. intros [H _]. destruct s, s'; cbn in *. subst. reflexivity. Qed.
  Lemma ktouch_shape s s' : ktouch s s' -> Shape kf s -> Shape kf s'.
  Proof. intros H HS. rewrite (ktouch_set _ _ H). apply shape_touch; [exact HS|apply H]. Qed.
  Lemma ktouch_shape0 s s' rows : ktouch s s' -> Shape0 kf s rows -> Shape0 kf s' rows.
  Proof. intros H HS. rewrite (ktouch_set _ _ H). apply shape0_touch; [exact HS|apply H]. Qed.
  Lemma ktouch_refl s : Shape kf s -> ktouch s s.
  Proof. intros H. split; [reflexivity|]. apply touch_refl. apply shape_core with (1 := H). Qed.
  Lemma ktouch_trans s1 s2 s3 : ktouch s1 s2 -> ktouch s2 s3 -> ktouch s1 s3.
  Proof. intros [H1 T1] [H2 T2]. split; [congruence|eapply touch_trans; eauto]. Qed.
  Lemma ktouch_contents s s' : ktouch s s' -> contents (kc s') = contents (kc s).
  Proof. intros [_ T]. apply touch_contents. exact T. Qed.
  Lemma ktouch_lists s s' : ktouch s s' -> lists (kc s') = lists (kc s).
  Proof. intros [_ T]. apply touch_lists. exact T. Qed.
  Lemma ktouch_load s s' : ktouch s s' -> load (kc s') = load (kc s).
  Proof. intros [_ T]. apply touch_load. exact T. Qed.

  Lemma oncore_ktouch {A} (m : M (core V K) A) s r c' : m (kc s) = (r, c') -> touch (kc s) c' ->
    exists s', oncore (skl_vt klt kf) m s = (r, s') /\ ktouch s s'.
  Proof.
    intros H T. exists (set_kc c' s). unfold oncore, zoom, skl_vt. cbn [vt_get vt_put]. rewrite H.
    split; [reflexivity|]. split; [reflexivity|exact T].
  Qed.

  Lemma kloc_ok s p i j : Shape kf s -> Bnd (lists (kc s)) p i j ->
    exists s', oncore (skl_vt klt kf) (loc p i) s = (Ok j, s') /\ ktouch s s'.
  Proof.
    intros HS HB. destruct (loc_ok _ _ _ _ (shape_core _ _ HS) HB) as (c' & H & T).
    eapply oncore_ktouch; eauto.
  Qed.

  (** ** Walking along the contents *)
  Lemma locate_row s rows p i j : Shape0 kf s rows -> Locate (lists (kc s)) p i j ->
    exists ks l x k, getn (keys s) p = Ok ks /\ getn (lists (kc s)) p = Ok l /\
      getn ks i = Ok k /\ getn l i = Ok x /\ kf x = Ok k /\ length ks = length l /\
      i < length l /\ exists rest, skipn j (contents (kc s)) = x :: rest /\ skipn (S j) (contents (kc s)) = rest.
  Proof.
    intros H (X & l & Y & EX & Hp & Hi & Hj). pose proof EX as EX'.
    rewrite (sh_lists _ _ _ H) in EX.
    destruct (map_eq_app _ _ _ _ EX) as (RA & RB' & -> & HRA & HRB').
    destruct RB' as [|r RB]; [discriminate|]. cbn in HRB'. injection HRB' as Hrl HRB.
    assert (Hr : row_ok kf r).
    { pose proof (sh_rows _ _ _ H) as HR. rewrite Forall_app in HR. destruct HR as [_ HR]. inversion HR; assumption. }
    assert (Hlen := row_ok_len _ _ Hr). destruct Hr as [Hm _].
    assert (Hp' : length RA = p) by (subst p X; rewrite map_length; reflexivity).
    destruct (split_at l i Hi) as (a & x & b & El & Ha).
    rewrite Hrl, El in Hm. apply mapR_app_inv in Hm as (ka & kxb & Ek & Hka & Hkxb).
    apply mapR_cons_inv in Hkxb as (k & kb & -> & Hkx & Hkb).
    assert (Hla := mapR_length _ _ _ Hka).
    exists (r_k r), l, x, k.
    split; [rewrite (sh_keys _ _ _ H), <- Hp'; apply getn_mid|].
    split; [rewrite EX'; apply getn_app'; auto|].
    split; [rewrite Ek; apply getn_app'; lia|].
    split; [rewrite El; apply getn_app'; auto|].
    split; [exact Hkx|]. split; [congruence|]. split; [exact Hi|].
    exists (b ++ concat Y).
    assert (EC : contents (kc s) = (concat X ++ a) ++ x :: (b ++ concat Y)).
    { unfold contents. rewrite EX', concat_app. cbn. rewrite El, <- !app_assoc. reflexivity. }
    assert (Hja : j = length (concat X ++ a)) by (rewrite app_length; lia).
    rewrite EC, Hja, skipn_app_len, skipn_S_app_len. auto.
  Qed.

  Lemma locate_next s rows p i j l : Shape0 kf s rows -> Locate (lists (kc s)) p i j ->
    getn (lists (kc s)) p = Ok l ->
    (i + 1 < length l /\ Locate (lists (kc s)) p (i + 1) (S j)) \/
    (i + 1 = length l /\ p + 1 = length (keys s) /\ skipn (S j) (contents (kc s)) = []) \/
    (i + 1 = length l /\ p + 1 < length (keys s) /\ Locate (lists (kc s)) (p + 1) 0 (S j) /\
     exists ks' l', getn (keys s) (p + 1) = Ok ks' /\ getn (lists (kc s)) (p + 1) = Ok l' /\ length ks' = length l').
  Proof.
    intros H (X & l' & Y & EX & Hp & Hi & Hj) Hg.
    assert (l' = l) by (rewrite EX, (getn_app' X l' Y p) in Hg by auto; congruence). subst l'.
    destruct (Nat.eq_dec (i + 1) (length l)) as [He|Hne].
    - right. assert (Hk : length (keys s) = length (lists (kc s))).
      { rewrite (sh_keys _ _ _ H), (sh_lists _ _ _ H), !map_length. reflexivity. }
      destruct Y as [|y Y].
      + left. split; [exact He|]. split; [rewrite Hk, EX, app_length; cbn; lia|].
        apply skipn_all2. unfold contents. rewrite EX, concat_app. cbn. rewrite app_nil_r, app_length. lia.
      + right. split; [exact He|]. split; [rewrite Hk, EX, app_length; cbn; lia|].
        assert (HL : Locate (lists (kc s)) (p + 1) 0 (S j)).
        { exists (X ++ [l]), y, Y. rewrite <- app_assoc. split; [exact EX|].
          split; [rewrite app_length; cbn; lia|]. split.
          - assert (Hin : In y (lists (kc s))) by (rewrite EX; apply in_or_app; right; right; left; reflexivity).
            rewrite (sh_lists _ _ _ H) in Hin. apply in_map_iff in Hin as (r & <- & Hr).
            pose proof (sh_rows _ _ _ H) as HR. rewrite Forall_forall in HR. pose proof (row_ok_ne _ _ (HR _ Hr)). lia.
          - rewrite concat_app, app_length. cbn. rewrite app_nil_r. lia. }
        split; [exact HL|]. destruct (locate_row s rows _ _ _ H HL) as (ks' & l' & x & k & H1 & H2 & _ & _ & _ & H3 & _).
        exists ks', l'. auto.
    - left. split; [lia|]. exists X, l, Y. split; [exact EX|]. split; [exact Hp|]. split; lia.
  Qed.

  (** What the scans of [__contains__], [discard], [remove] compute, on the
      flat contents from the starting position. *)
  Fixpoint scan (key : K) (v : V) (l : list V) : res (option nat) :=
    match l with
    | [] => Ok None
    | x :: t =>
        let! k := kf x in
        let! same := keq k key in
        if negb same then Ok None
        else let! f := eq x v in
             if f then Ok (Some 0) else let! r := scan key v t in Ok (option_map S r)
    end.

  Lemma scan_loop_ok s rows key v : Shape0 kf s rows -> forall fuel p i j l,
    Locate (lists (kc s)) p i j -> getn (lists (kc s)) p = Ok l ->
    length (skipn j (contents (kc s))) < fuel ->
    (exists e, scan key v (skipn j (contents (kc s))) = Err e /\
               scan_loop eq keq fuel s key v p i (length l) = Err e) \/
    (scan key v (skipn j (contents (kc s))) = Ok None /\
     scan_loop eq keq fuel s key v p i (length l) = Ok None) \/
    (exists d p' i', scan key v (skipn j (contents (kc s))) = Ok (Some d) /\
       scan_loop eq keq fuel s key v p i (length l) = Ok (Some (p', i')) /\
       Locate (lists (kc s)) p' i' (j + d)).
  Proof.
    intros H. induction fuel as [|fuel IH]; intros p i j l HL Hg Hf; [lia|].
    destruct (locate_row s rows p i j H HL) as (ks & l' & x & k & H1 & H2 & H3 & H4 & H5 & H6 & H7 & rest & E1 & E2).
    assert (l' = l) by congruence. subst l'. cbn [scan_loop]. rewrite H1, E1. cbn [rbind scan].
    rewrite H3, H5. cbn [rbind]. rewrite E1 in Hf. cbn [length] in Hf.
    destruct (keq k key) as [same|e]; cbn [rbind]; [|left; eauto].
    destruct same; cbn [negb]; [|right; left; auto].
    rewrite H2. cbn [rbind]. rewrite H4. cbn [rbind].
    destruct (eq x v) as [f|e]; cbn [rbind]; [|left; eauto].
    destruct f.
    { right; right. exists 0, p, i. rewrite Nat.add_0_r. auto. }
    destruct (locate_next s rows p i j l H HL Hg) as [[Ha Hb]|[(Ha & Hb & Hc)|(Ha & Hb & Hc & ks' & l' & Hd & He & Hl)]].
    - destruct (Nat.eqb_spec (i + 1) (length l)); [lia|].
      assert (Hfl : length (skipn (S j) (contents (kc s))) < fuel) by (rewrite E2; lia).
      destruct (IH p (i + 1) (S j) l Hb Hg Hfl) as [(ee & S1 & S2)|[[S1 S2]|(d & p' & i' & S1 & S2 & S3)]];
        rewrite E2 in S1; rewrite S1, S2; cbn [rbind option_map].
      + left; eauto.
      + right; left; auto.
      + right; right. exists (S d), p', i'. rewrite Nat.add_succ_r. auto.
    - destruct (Nat.eqb_spec (i + 1) (length l)); [|lia].
      destruct (Nat.eqb_spec (p + 1) (length (keys s))); [|lia].
      rewrite E2 in Hc. rewrite Hc. right; left. auto.
    - destruct (Nat.eqb_spec (i + 1) (length l)); [|lia].
      destruct (Nat.eqb_spec (p + 1) (length (keys s))); [lia|].
      rewrite Hd. cbn [rbind]. rewrite Hl.
      assert (Hfl : length (skipn (S j) (contents (kc s))) < fuel) by (rewrite E2; lia).
      destruct (IH (p + 1) 0 (S j) l' Hc He Hfl) as [(ee & S1 & S2)|[[S1 S2]|(d & p' & i' & S1 & S2 & S3)]];
        rewrite E2 in S1; rewrite S1, S2; cbn [rbind option_map].
      + left; eauto.
      + right; left; auto.
      + right; right. exists (S d), p', i'. rewrite Nat.add_succ_r. auto.
  Qed.

  Lemma scan_fuel_ok s rows j : Shape0 kf s rows -> length (skipn j (contents (kc s))) < scan_fuel s.
  Proof.
    intros H. unfold scan_fuel. rewrite skipn_length.
    pose proof (mapR_length _ _ _ (shape_keys _ _ _ H)) as Hl.
    rewrite (sh_keys _ _ _ H). lia.
  Qed.

  (** [count] *)
  Fixpoint cscan (key : K) (v : V) (total : nat) (l : list V) : res nat :=
    match l with
    | [] => Ok total
    | x :: t =>
        let! k := kf x in
        let! same := keq k key in
        if negb same then Ok total
        else let! f := eq x v in cscan key v (if f then total + 1 else total) t
    end.
  Lemma count_loop_ok s rows key v : Shape0 kf s rows -> forall fuel p i j l total,
    Locate (lists (kc s)) p i j -> getn (lists (kc s)) p = Ok l ->
    length (skipn j (contents (kc s))) < fuel ->
    count_loop eq keq fuel s key v p i (length l) total = cscan key v total (skipn j (contents (kc s))).
  Proof.
    intros H. induction fuel as [|fuel IH]; intros p i j l total HL Hg Hf; [lia|].
    destruct (locate_row s rows p i j H HL) as (ks & l' & x & k & H1 & H2 & H3 & H4 & H5 & H6 & H7 & rest & E1 & E2).
    assert (l' = l) by congruence. subst l'. cbn [count_loop]. rewrite H1, E1. cbn [rbind cscan].
    rewrite H3, H5. cbn [rbind]. rewrite E1 in Hf. cbn [length] in Hf.
    destruct (keq k key) as [same|e]; cbn [rbind]; [|reflexivity].
    destruct same; cbn [negb]; [|reflexivity].
    rewrite H2. cbn [rbind]. rewrite H4. cbn [rbind].
    destruct (eq x v) as [f|e]; cbn [rbind]; [|reflexivity].
    destruct (locate_next s rows p i j l H HL Hg) as [[Ha Hb]|[(Ha & Hb & Hc)|(Ha & Hb & Hc & ks' & l' & Hd & He & Hl)]].
    - destruct (Nat.eqb_spec (i + 1) (length l)); [lia|].
      rewrite <- E2. apply IH; [exact Hb|exact Hg|rewrite E2; lia].
    - destruct (Nat.eqb_spec (i + 1) (length l)); [|lia].
      destruct (Nat.eqb_spec (p + 1) (length (keys s))); [|lia].
      rewrite E2 in Hc. rewrite Hc. reflexivity.
    - destruct (Nat.eqb_spec (i + 1) (length l)); [|lia].
      destruct (Nat.eqb_spec (p + 1) (length (keys s))); [lia|].
      rewrite Hd. cbn [rbind]. rewrite Hl, <- E2. apply IH; [exact Hc|exact He|rewrite E2; lia].
  Qed.

  (** [index] *)
  Fixpoint iscan (key : K) (v : V) (start stop : Z) (j : nat) (l : list V) : res nat :=
    match l with
    | [] => Err ValueError
    | x :: t =>
        let! k := kf x in
        let! same := keq k key in
        if negb same then Err ValueError
        else
          let! f := eq x v in
          if f then
            if ((start <=? Z.of_nat j) && (Z.of_nat j <=? stop))%Z then Ok j
            else if (stop <? Z.of_nat j)%Z then Err ValueError
            else iscan key v start stop (S j) t
          else iscan key v start stop (S j) t
    end.
  Lemma index_loop_ok rows key v start stop : forall fuel s p i j l, Shape kf s -> Shape0 kf s rows ->
    Locate (lists (kc s)) p i j -> getn (lists (kc s)) p = Ok l ->
    length (skipn j (contents (kc s))) < fuel ->
    exists s', index_loop eq klt keq kf fuel key v start stop p i (length l) s
      = (iscan key v start stop j (skipn j (contents (kc s))), s') /\ ktouch s s'.
  Proof.
    induction fuel as [|fuel IH]; intros s p i j l HS H HL Hg Hf; [lia|].
    destruct (locate_row s rows p i j H HL) as (ks & l' & x & k & H1 & H2 & H3 & H4 & H5 & H6 & H7 & rest & E1 & E2).
    assert (l' = l) by congruence. subst l'. cbn [index_loop]. rewrite bind_get.
    rewrite (bind_lift _ _ _ _ H1), (bind_lift _ _ _ _ H3). rewrite E1. cbn [iscan]. rewrite H5. cbn [rbind].
    rewrite E1 in Hf. cbn [length] in Hf.
    assert (Hrefl : ktouch s s) by (apply ktouch_refl; exact HS).
    destruct (keq k key) as [same|e]; cbn [rbind]; [|exists s; auto].
    rewrite (bind_lift _ _ _ _ eq_refl).
    destruct same; cbn [negb]; [|exists s; auto].
    rewrite (bind_lift _ _ _ _ H2), (bind_lift _ _ _ _ H4).
    destruct (eq x v) as [f|e]; cbn [rbind]; [|exists s; auto].
    rewrite (bind_lift _ _ _ _ eq_refl).
    (* the continuation *)
    assert (Cont : forall s1, ktouch s s1 -> exists s',
      (if i + 1 =? length l
       then if p + 1 =? length (keys s) then raise ValueError
            else ks' <- liftr (getn (keys s) (p + 1)) ;;
                 index_loop eq klt keq kf fuel key v start stop (p + 1) 0 (length ks')
       else index_loop eq klt keq kf fuel key v start stop p (i + 1) (length l)) s1 =
      (iscan key v start stop (S j) rest, s') /\ ktouch s s').
    { intros s1 HT. pose proof (ktouch_shape _ _ HT HS) as HS1. pose proof (ktouch_shape0 _ _ _ HT H) as H0.
      pose proof (ktouch_lists _ _ HT) as HLs. pose proof (ktouch_contents _ _ HT) as HCs.
      destruct (locate_next s rows p i j l H HL Hg) as [[Ha Hb]|[(Ha & Hb & Hc)|(Ha & Hb & Hc & ks' & l' & Hd & He & Hl)]].
      - destruct (Nat.eqb_spec (i + 1) (length l)); [lia|].
        destruct (IH s1 p (i + 1) (S j) l HS1 H0) as (s2 & Hr & T2);
          [rewrite HLs; exact Hb|rewrite HLs; exact Hg|rewrite HCs, E2; lia|].
        rewrite HCs, E2 in Hr. exists s2. split; [exact Hr|eapply ktouch_trans; eauto].
      - destruct (Nat.eqb_spec (i + 1) (length l)); [|lia].
        destruct (Nat.eqb_spec (p + 1) (length (keys s))); [|lia].
        rewrite E2 in Hc. rewrite Hc. exists s1. auto.
      - destruct (Nat.eqb_spec (i + 1) (length l)); [|lia].
        destruct (Nat.eqb_spec (p + 1) (length (keys s))); [lia|].
        rewrite (bind_lift _ _ _ _ Hd), Hl.
        destruct (IH s1 (p + 1) 0 (S j) l' HS1 H0) as (s2 & Hr & T2);
          [rewrite HLs; exact Hc|rewrite HLs; exact He|rewrite HCs, E2; lia|].
        rewrite HCs, E2 in Hr. exists s2. split; [exact Hr|eapply ktouch_trans; eauto]. }
    destruct f; [|apply Cont; exact Hrefl].
    destruct (kloc_ok s p i j HS (locate_bnd _ _ _ _ HL)) as (s1 & Hl & T1).
    cbv zeta. rewrite (bind_ok _ _ _ _ _ Hl).
    destruct ((start <=? Z.of_nat j) && (Z.of_nat j <=? stop))%Z; [exists s1; auto|].
    destruct (stop <? Z.of_nat j)%Z; [exists s1; auto|]. apply Cont. exact T1.
  Qed.

  (** A two-level search with arbitrary comparisons. *)
  Lemma search_gen p s rows pos : Shape0 kf s rows -> bs p (maxes (kc s)) = Ok pos ->
    pos <> length (maxes (kc s)) ->
    exists ks l, getn (keys s) pos = Ok ks /\ getn (lists (kc s)) pos = Ok l /\ length ks = length l /\
      forall idx, bs p ks = Ok idx -> exists j, Locate (lists (kc s)) pos idx j.
  Proof.
    intros H Hpos Hne. rewrite (sh_maxes _ _ _ H) in Hpos, Hne. rewrite map_length in Hne.
    destruct (two_level kf _ _ _ (sh_rows _ _ _ H) Hpos) as [[-> _]|(RA & r & RB & -> & -> & HS)]; [congruence|].
    assert (Hr : row_ok kf r).
    { pose proof (sh_rows _ _ _ H) as HR. rewrite Forall_app in HR. destruct HR as [_ HR]. inversion HR; assumption. }
    assert (Hrl := row_ok_len _ _ Hr).
    exists (r_k r), (r_l r).
    split; [rewrite (sh_keys _ _ _ H); apply getn_mid|].
    split; [rewrite (sh_lists _ _ _ H); apply getn_mid|].
    split; [exact Hrl|]. intros idx Hb. destruct (HS idx Hb) as [Hlt _].
    exists (length (concat (map r_l RA)) + idx).
    exists (map r_l RA), (r_l r), (map r_l RB).
    split; [rewrite (sh_lists _ _ _ H), map_app; reflexivity|].
    split; [apply map_length|]. split; [lia|reflexivity].
  Qed.
End Order_free.

(** ** Total orders *)
Section KeyTotalLook.
  Context {V K : Type}.
  Variable key : V -> K.
  Variables kltb keqb : K -> K -> bool.
  Variable eqb : V -> V -> bool.
  Hypothesis HKT : TotalOrder kltb keqb.
  Hypothesis HE : EqCompat (by_key key kltb) eqb.
  Notation klt := (total2 kltb).
  Notation keq := (total2 keqb).
  Notation eq := (total2 eqb).
  Notation kf := (total1 key).
  Notation ltb := (by_key key kltb).
  Notation Shape := (Shape kf).
  Let HK : SWO kltb := to_swo HKT.
  Let HOo : SWO ltb := by_key_swo key kltb HK.

  Lemma bisect_left_p a k : bisect_left klt a k = bs (fun y => Ok (negb (kltb y k))) a.
  Proof. rewrite bisect_left_bs. reflexivity. Qed.
  Lemma bisect_right_p a k : bisect_right klt a k = bs (fun y => Ok (kltb k y)) a.
  Proof. rewrite bisect_right_bs. reflexivity. Qed.

  Lemma filter_ext_negb (p : V -> bool) l : filter (fun v => negb (negb (p v))) l = filter p l.
  Proof. apply filter_ext. intros x. apply negb_involutive. Qed.

  (** Values whose key lies at or after [k]. *)
  Lemma mono_left k l : sorted ltb l -> MonoOn (fun v => negb (kltb (key v) k)) l.
  Proof.
    intros H. apply (MonoOn_map key (fun y => negb (kltb y k))). apply sorted_mono_ge; [exact HK|].
    apply sorted_by_key. exact H.
  Qed.
  Lemma mono_right k l : sorted ltb l -> MonoOn (fun v => kltb k (key v)) l.
  Proof.
    intros H. apply (MonoOn_map key (kltb k)). apply sorted_mono_gt; [exact HK|].
    apply sorted_by_key. exact H.
  Qed.

  Lemma search_left k s : Shape s -> sorted ltb (contents (kc s)) ->
    exists pos, bisect_left klt (maxes (kc s)) k = Ok pos /\
      ((pos = length (maxes (kc s)) /\ sp_bisect_key_left key kltb k (contents (kc s)) = length (contents (kc s)) /\
        forall v, In v (contents (kc s)) -> kltb (key v) k = true) \/
       (pos < length (maxes (kc s)) /\ exists ks l idx, getn (keys s) pos = Ok ks /\ getn (lists (kc s)) pos = Ok l /\
          length ks = length l /\ bisect_left klt ks k = Ok idx /\
          Locate (lists (kc s)) pos idx (sp_bisect_key_left key kltb k (contents (kc s))))).
  Proof.
    intros HS Hs. pose proof HS as (rows & H & Hl).
    destruct (search_ok key (fun y => negb (kltb y k)) s rows H (mono_left k _ Hs)) as (pos & Hp & Hc).
    exists pos. rewrite bisect_left_p. split; [exact Hp|].
    rewrite filter_ext_negb in Hc. fold (sp_bisect_key_left key kltb k (contents (kc s))) in Hc.
    destruct Hc as [(-> & Hall & Hnone)|(Hlt & ks & idx & Hks & Hidx & HL)].
    - left. split; [reflexivity|]. split; [unfold sp_bisect_key_left; rewrite Hall; reflexivity|].
      intros v Hv. rewrite <- Hall in Hv. apply filter_In in Hv. apply Hv.
    - right. split; [exact Hlt|].
      destruct (locate_row kf s rows _ _ _ H HL) as (ks' & l & x & kx & G1 & G2 & _ & _ & _ & G3 & _).
      assert (ks' = ks) by congruence. subst ks'. exists ks, l, idx. rewrite bisect_left_p. auto 10.
  Qed.
  Lemma search_right k s : Shape s -> sorted ltb (contents (kc s)) ->
    exists pos, bisect_right klt (maxes (kc s)) k = Ok pos /\
      ((pos = length (maxes (kc s)) /\ sp_bisect_key_right key kltb k (contents (kc s)) = length (contents (kc s))) \/
       (pos < length (maxes (kc s)) /\ exists ks idx, getn (keys s) pos = Ok ks /\
          bisect_right klt ks k = Ok idx /\
          Locate (lists (kc s)) pos idx (sp_bisect_key_right key kltb k (contents (kc s))))).
  Proof.
    intros HS Hs. pose proof HS as (rows & H & Hl).
    destruct (search_ok key (fun y => kltb k y) s rows H (mono_right k _ Hs)) as (pos & Hp & Hc).
    exists pos. rewrite bisect_right_p. split; [exact Hp|].
    fold (sp_bisect_key_right key kltb k (contents (kc s))) in Hc.
    destruct Hc as [(-> & Hall & Hnone)|(Hlt & ks & idx & Hks & Hidx & HL)].
    - left. split; [reflexivity|]. unfold sp_bisect_key_right. rewrite Hall. reflexivity.
    - right. split; [exact Hlt|]. exists ks, idx. rewrite bisect_right_p. auto.
  Qed.

  Lemma maxes_nil_contents s : Shape s -> is_nil (maxes (kc s)) = true -> contents (kc s) = [].
  Proof.
    intros (rows & H & _) E. assert (rows = []) by (eapply shape_nil; eauto). subst rows.
    unfold contents. rewrite (sh_lists _ _ _ H). reflexivity.
  Qed.

  Lemma bisect_key_left_ok k s : Shape s -> sorted ltb (contents (kc s)) ->
    exists s', skl_bisect_key_left klt kf k s = (Ok (sp_bisect_key_left key kltb k (contents (kc s))), s') /\ ktouch s s'.
  Proof.
    intros HS Hs. unfold skl_bisect_key_left. rewrite bind_get.
    assert (Hrefl : ktouch s s) by (apply (ktouch_refl kf); exact HS).
    destruct (is_nil (maxes (kc s))) eqn:En.
    { rewrite (maxes_nil_contents s HS En). exists s. auto. }
    destruct (search_left k s HS Hs) as (pos & Hp & [(-> & Hall & _)|(Hlt & ks & l & idx & G1 & G2 & G3 & G4 & HL)]).
    - rewrite (bind_lift _ _ _ _ Hp), Nat.eqb_refl. rewrite Hall. exists s.
      rewrite (co_len _ (shape_core _ _ HS)). auto.
    - rewrite (bind_lift _ _ _ _ Hp). destruct (Nat.eqb_spec pos (length (maxes (kc s)))); [lia|].
      rewrite (bind_lift _ _ _ _ G1), (bind_lift _ _ _ _ G4).
      apply kloc_ok; [exact HS|apply locate_bnd; exact HL].
  Qed.
  Lemma bisect_key_right_ok k s : Shape s -> sorted ltb (contents (kc s)) ->
    exists s', skl_bisect_key_right klt kf k s = (Ok (sp_bisect_key_right key kltb k (contents (kc s))), s') /\ ktouch s s'.
  Proof.
    intros HS Hs. unfold skl_bisect_key_right. rewrite bind_get.
    assert (Hrefl : ktouch s s) by (apply (ktouch_refl kf); exact HS).
    destruct (is_nil (maxes (kc s))) eqn:En.
    { rewrite (maxes_nil_contents s HS En). exists s. auto. }
    destruct (search_right k s HS Hs) as (pos & Hp & [(-> & Hall)|(Hlt & ks & idx & G1 & G4 & HL)]).
    - rewrite (bind_lift _ _ _ _ Hp), Nat.eqb_refl. rewrite Hall. exists s.
      rewrite (co_len _ (shape_core _ _ HS)). auto.
    - rewrite (bind_lift _ _ _ _ Hp). destruct (Nat.eqb_spec pos (length (maxes (kc s)))); [lia|].
      rewrite (bind_lift _ _ _ _ G1), (bind_lift _ _ _ _ G4).
      apply kloc_ok; [exact HS|apply locate_bnd; exact HL].
  Qed.

  (** ** The run of equal keys *)
  Lemma keqb_tie x y : keqb (key x) (key y) = tie ltb x y.
  Proof. rewrite (to_eq HKT). reflexivity. Qed.

  (** The contents split at the left rank of [key v]: smaller keys, then the
      ties, then the greater ones. *)
  Lemma rank_split v l : sorted ltb l ->
    exists a t b, l = a ++ t ++ b /\ length a = sp_bisect_key_left key kltb (key v) l /\
      (forall x, In x a -> ltb x v = true) /\
      (forall x, In x t -> tie ltb x v = true) /\
      (forall x, In x b -> ltb v x = true).
  Proof.
    intros H. pose proof (mono_left (key v) l H) as M1.
    exists (filter (fun x => ltb x v) l),
           (filter (fun x => negb (ltb v x)) (filter (fun x => negb (ltb x v)) l)),
           (filter (fun x => ltb v x) (filter (fun x => negb (ltb x v)) l)).
    split; [|split; [reflexivity|split; [|split]]].
    - rewrite mono_filter_app with (p := fun x => ltb v x).
      + pose proof (mono_filter_app (fun x => negb (kltb (key x) (key v))) l M1) as E. cbv beta in E. rewrite (filter_ext_negb (fun x => kltb (key x) (key v))) in E.
        symmetry. exact E.
      + apply mono_right. apply sorted_filter. exact H.
    - intros x Hx. apply filter_In in Hx. apply Hx.
    - intros x Hx. apply filter_In in Hx as [Hx H1]. apply filter_In in Hx as [_ H2].
      unfold tie. rewrite H1, H2. reflexivity.
    - intros x Hx. apply filter_In in Hx. apply Hx.
  Qed.

  Lemma ltb_not_eq x v : ltb x v = true -> eqb x v = false.
  Proof.
    intros H. destruct (eqb x v) eqn:E; [|reflexivity]. apply HE in E as [E _]. congruence.
  Qed.
  Lemma gtb_not_eq x v : ltb v x = true -> eqb x v = false.
  Proof.
    intros H. destruct (eqb x v) eqn:E; [|reflexivity]. apply HE in E as [_ E]. congruence.
  Qed.

  Lemma scan_total v t b : (forall x, In x t -> tie ltb x v = true) -> (forall x, In x b -> ltb v x = true) ->
    (scan eq keq kf (key v) v (t ++ b) = Ok None /\ (forall x, In x t -> eqb x v = false)) \/
    (exists t1 x t2, t = t1 ++ x :: t2 /\ eqb x v = true /\ (forall y, In y t1 -> eqb y v = false) /\
       scan eq keq kf (key v) v (t ++ b) = Ok (Some (length t1))).
  Proof.
    intros Ht Hb. induction t as [|x t IH].
    - left. split; [|intros x []]. destruct b as [|y b]; [reflexivity|].
      cbn [app scan]. unfold total1, total2. cbn [rbind]. rewrite keqb_tie.
      assert (tie ltb y v = false) as ->; [|reflexivity].
      unfold tie. rewrite (Hb y) by (left; reflexivity). apply andb_false_r.
    - cbn [app scan]. unfold total1, total2. cbn [rbind]. rewrite keqb_tie.
      rewrite (Ht x) by (left; reflexivity). cbn [negb].
      destruct (eqb x v) eqn:Ex.
      + right. exists [], x, t. split; [reflexivity|]. split; [exact Ex|]. split; [intros y []|reflexivity].
      + destruct IH as [[IH1 IH2]|(t1 & y & t2 & -> & Hy & Hn & IH1)].
        * intros y Hy. apply Ht. right. exact Hy.
        * left. unfold total1, total2 in IH1. rewrite IH1. split; [reflexivity|].
          intros y [<-|Hy]; [exact Ex|apply IH2; exact Hy].
        * right. exists (x :: t1), y, t2. split; [reflexivity|]. split; [exact Hy|].
          split; [intros z [<-|Hz]; [exact Ex|apply Hn; exact Hz]|].
          unfold total1, total2 in IH1. rewrite IH1. reflexivity.
  Qed.

  (** What a search for [v] finds. *)
  Lemma find_ok v s : Shape s -> sorted ltb (contents (kc s)) ->
    (skl_find eq klt keq kf v s = (Ok None, s) /\ forall x, In x (contents (kc s)) -> eqb x v = false) \/
    (exists p i a x b, skl_find eq klt keq kf v s = (Ok (Some (p, i)), s) /\
       contents (kc s) = a ++ x :: b /\ Locate (lists (kc s)) p i (length a) /\
       eqb x v = true /\ forall y, In y a -> eqb y v = false).
  Proof.
    intros HS Hs. pose proof HS as (rows & H & Hl). unfold skl_find. rewrite bind_get.
    destruct (is_nil (maxes (kc s))) eqn:En.
    { left. rewrite (maxes_nil_contents s HS En). split; [reflexivity|intros x []]. }
    assert (Hkv : kf v = Ok (key v)) by reflexivity. rewrite (bind_lift _ _ _ _ Hkv).
    destruct (search_left (key v) s HS Hs) as (pos & Hp & [(-> & Hall & Hlt)|(Hlt & ks & l & idx & G1 & G2 & G3 & G4 & HL)]).
    - rewrite (bind_lift _ _ _ _ Hp), Nat.eqb_refl. left. split; [reflexivity|].
      intros x Hx. apply ltb_not_eq, Hlt, Hx.
    - rewrite (bind_lift _ _ _ _ Hp). destruct (Nat.eqb_spec pos (length (maxes (kc s)))); [lia|].
      rewrite (bind_lift _ _ _ _ G1), (bind_lift _ _ _ _ G4). rewrite G3. unfold liftr.
      destruct (rank_split v (contents (kc s)) Hs) as (a & t & b & E & Ha & Hta & Ht & Htb).
      rewrite <- Ha in HL.
      assert (Esk : skipn (length a) (contents (kc s)) = t ++ b) by (rewrite E; apply skipn_app_len).
      destruct (scan_loop_ok eq keq kf s rows (key v) v H (scan_fuel s) pos idx (length a) l HL G2
                  (scan_fuel_ok kf s rows _ H)) as [(ee & S1 & S2)|[[S1 S2]|(d & p' & i' & S1 & S2 & S3)]];
        rewrite Esk in S1; rewrite S2;
        destruct (scan_total v t b Ht Htb) as [[T1 T2]|(t1 & x & t2 & -> & Hx & Hn & T1)]; try congruence.
      + left. split; [reflexivity|]. intros x Hx. rewrite E in Hx.
        apply in_app_or in Hx as [Hx|Hx]; [apply ltb_not_eq, Hta, Hx|].
        apply in_app_or in Hx as [Hx|Hx]; [apply T2, Hx|apply gtb_not_eq, Htb, Hx].
      + right. assert (d = length t1) by congruence. subst d.
        exists p', i', (a ++ t1), x, (t2 ++ b). split; [reflexivity|].
        split; [rewrite E, <- !app_assoc; reflexivity|].
        split; [rewrite app_length; exact S3|]. split; [exact Hx|].
        intros y Hy. apply in_app_or in Hy as [Hy|Hy]; [apply ltb_not_eq, Hta, Hy|apply Hn, Hy].
  Qed.

  Lemma sp_contains_false v l : (forall x, In x l -> eqb x v = false) -> sp_contains eqb v l = false.
  Proof.
    intros H. unfold sp_contains. apply not_true_iff_false. rewrite existsb_exists.
    intros (x & Hx & E). rewrite H in E by exact Hx. discriminate.
  Qed.
  Lemma sp_contains_true v a x b : eqb x v = true -> sp_contains eqb v (a ++ x :: b) = true.
  Proof.
    intros H. unfold sp_contains. apply existsb_exists. exists x. split; [|exact H].
    apply in_or_app. right. left. reflexivity.
  Qed.
  Lemma sp_discard_none v l : (forall x, In x l -> eqb x v = false) -> sp_discard eqb v l = l.
  Proof.
    induction l as [|x l IH]; intros H; [reflexivity|]. cbn. rewrite H by (left; reflexivity).
    f_equal. apply IH. intros; apply H; right; assumption.
  Qed.
  Lemma sp_discard_at v a x b : eqb x v = true -> (forall y, In y a -> eqb y v = false) ->
    sp_discard eqb v (a ++ x :: b) = a ++ b.
  Proof.
    intros Hx. induction a as [|y a IH]; intros H; cbn; [rewrite Hx; reflexivity|].
    rewrite H by (left; reflexivity). f_equal. apply IH. intros; apply H; right; assumption.
  Qed.

  Lemma skl_contains_ok v s : Shape s -> sorted ltb (contents (kc s)) ->
    skl_contains eq klt keq kf v s = (Ok (sp_contains eqb v (contents (kc s))), s).
  Proof.
    intros HS Hs. unfold skl_contains.
    destruct (find_ok v s HS Hs) as [[Hf Hn]|(p & i & a & x & b & Hf & E & _ & Hx & _)];
      rewrite (bind_ok _ _ _ _ _ Hf).
    - rewrite sp_contains_false by exact Hn. reflexivity.
    - rewrite E, sp_contains_true by exact Hx. reflexivity.
  Qed.

  Lemma skl_discard_ok v s : Shape s -> sorted ltb (contents (kc s)) ->
    exists s', skl_discard eq klt keq kf v s = (Ok tt, s') /\ Shape s' /\
      contents (kc s') = sp_discard eqb v (contents (kc s)) /\ load (kc s') = load (kc s).
  Proof.
    intros HS Hs. unfold skl_discard.
    destruct (find_ok v s HS Hs) as [[Hf Hn]|(p & i & a & x & b & Hf & E & HL & Hx & Ha)];
      rewrite (bind_ok _ _ _ _ _ Hf).
    - exists s. rewrite sp_discard_none by exact Hn. auto.
    - destruct (vo_delete _ _ (skl_vt_ok klt kf) s a x b p i HS E HL) as (s' & H1 & H2 & H3 & H4).
      exists s'. split; [exact H1|]. split; [exact H2|]. split; [|exact H4].
      rewrite E, sp_discard_at by assumption. exact H3.
  Qed.

  Lemma skl_remove_ok v s : Shape s -> sorted ltb (contents (kc s)) ->
    exists s', skl_remove eq klt keq kf v s = (fst (sp_remove eqb v (contents (kc s))), s') /\ Shape s' /\
      contents (kc s') = snd (sp_remove eqb v (contents (kc s))) /\ load (kc s') = load (kc s).
  Proof.
    intros HS Hs. unfold skl_remove, sp_remove.
    destruct (find_ok v s HS Hs) as [[Hf Hn]|(p & i & a & x & b & Hf & E & HL & Hx & Ha)];
      rewrite (bind_ok _ _ _ _ _ Hf).
    - exists s. rewrite sp_contains_false by exact Hn. auto.
    - destruct (vo_delete _ _ (skl_vt_ok klt kf) s a x b p i HS E HL) as (s' & H1 & H2 & H3 & H4).
      exists s'. rewrite E, sp_contains_true by exact Hx. split; [exact H1|]. split; [exact H2|].
      split; [|exact H4]. rewrite sp_discard_at by assumption. exact H3.
  Qed.

  (** ** count *)
  Lemma cscan_total v t b : (forall x, In x t -> tie ltb x v = true) -> (forall x, In x b -> ltb v x = true) ->
    forall total, cscan eq keq kf (key v) v total (t ++ b) = Ok (total + sp_count eqb v t).
  Proof.
    intros Ht Hb. unfold sp_count. induction t as [|x t IH]; intros total.
    - cbn [filter length]. rewrite Nat.add_0_r. destruct b as [|y b]; [reflexivity|].
      cbn [app cscan]. unfold total1, total2. cbn [rbind]. rewrite keqb_tie.
      assert (tie ltb y v = false) as ->; [|reflexivity].
      unfold tie. rewrite (Hb y) by (left; reflexivity). apply andb_false_r.
    - cbn [app cscan]. unfold total1, total2. cbn [rbind]. rewrite keqb_tie.
      rewrite (Ht x) by (left; reflexivity). cbn [negb]. unfold total1, total2 in IH.
      rewrite IH by (intros y Hy; apply Ht; right; exact Hy). f_equal. cbn [filter].
      destruct (eqb x v); cbn [length]; lia.
  Qed.

  Lemma sp_count_app v l1 l2 : sp_count eqb v (l1 ++ l2) = sp_count eqb v l1 + sp_count eqb v l2.
  Proof. unfold sp_count. rewrite filter_app, app_length. reflexivity. Qed.
  Lemma sp_count_none v l : (forall x, In x l -> eqb x v = false) -> sp_count eqb v l = 0.
  Proof. intros H. unfold sp_count. rewrite filter_none by exact H. reflexivity. Qed.

  Lemma skl_count_ok v s : Shape s -> sorted ltb (contents (kc s)) ->
    skl_count eq klt keq kf v s = (Ok (sp_count eqb v (contents (kc s))), s).
  Proof.
    intros HS Hs. pose proof HS as (rows & H & Hl). unfold skl_count. rewrite bind_get.
    destruct (is_nil (maxes (kc s))) eqn:En.
    { rewrite (maxes_nil_contents s HS En). reflexivity. }
    assert (Hkv : kf v = Ok (key v)) by reflexivity. rewrite (bind_lift _ _ _ _ Hkv).
    destruct (search_left (key v) s HS Hs) as (pos & Hp & [(-> & Hall & Hlt)|(Hlt & ks & l & idx & G1 & G2 & G3 & G4 & HL)]).
    - rewrite (bind_lift _ _ _ _ Hp), Nat.eqb_refl. rewrite sp_count_none; [reflexivity|].
      intros x Hx. apply ltb_not_eq, Hlt, Hx.
    - rewrite (bind_lift _ _ _ _ Hp). destruct (Nat.eqb_spec pos (length (maxes (kc s)))); [lia|].
      rewrite (bind_lift _ _ _ _ G1), (bind_lift _ _ _ _ G4). rewrite G3. unfold liftr. f_equal.
      rewrite (count_loop_ok eq keq kf s rows (key v) v H _ _ _ _ _ _ HL G2 (scan_fuel_ok kf s rows _ H)).
      destruct (rank_split v (contents (kc s)) Hs) as (a & t & b & E & Ha & Hta & Ht & Htb).
      rewrite <- Ha. rewrite E. rewrite skipn_app_len, (cscan_total v t b Ht Htb).
      rewrite !sp_count_app. rewrite (sp_count_none v a), (sp_count_none v b); [f_equal; lia| |].
      + intros x Hx. apply gtb_not_eq, Htb, Hx.
      + intros x Hx. apply ltb_not_eq, Hta, Hx.
  Qed.

  (** ** index *)
  Lemma find_seq_app f n1 n2 : find f (seq 0 (n1 + n2)) =
    match find f (seq 0 n1) with Some i => Some i | None => find f (seq n1 n2) end.
  Proof.
    rewrite seq_app. generalize (seq 0 n1) as l. intros l. cbn [Nat.add].
    induction l as [|x l IH]; [reflexivity|]. cbn [app find]. destruct (f x); [reflexivity|exact IH].
  Qed.
  Lemma find_none_all {A} (f : A -> bool) l : (forall x, In x l -> f x = false) -> find f l = None.
  Proof.
    induction l as [|x l IH]; intros H; [reflexivity|]. cbn. rewrite H by (left; reflexivity).
    apply IH. intros; apply H; right; assumption.
  Qed.

  (** The predicate searched by [sp_index]. *)
  Definition hit v (ws we : Z) (l : list V) (i : nat) : bool :=
    ((ws <=? Z.of_nat i) && (Z.of_nat i <? we))%Z &&
    match nth_error l i with Some e => eqb e v | None => false end.

  Lemma iscan_total v ws we t b : (forall x, In x t -> tie ltb x v = true) -> (forall x, In x b -> ltb v x = true) ->
    forall a, iscan eq keq kf (key v) v ws (we - 1) (length a) (t ++ b) =
    match find (hit v ws we (a ++ t ++ b)) (seq (length a) (length t)) with
    | Some i => Ok i | None => Err ValueError end.
  Proof.
    intros Ht Hb. induction t as [|x t IH]; intros a.
    - cbn [length seq find app]. destruct b as [|y b]; [reflexivity|].
      cbn [app iscan]. unfold total1, total2. cbn [rbind]. rewrite keqb_tie.
      assert (tie ltb y v = false) as ->; [|reflexivity].
      unfold tie. rewrite (Hb y) by (left; reflexivity). apply andb_false_r.
    - cbn [app iscan length seq find]. unfold total1, total2. cbn [rbind]. rewrite keqb_tie.
      rewrite (Ht x) by (left; reflexivity). cbn [negb].
      assert (Hh : hit v ws we (a ++ x :: t ++ b) (length a)
                   = ((ws <=? Z.of_nat (length a)) && (Z.of_nat (length a) <? we))%Z && eqb x v).
      { unfold hit. rewrite nth_error_app2, Nat.sub_diag by lia. reflexivity. }
      rewrite Hh. unfold total1, total2 in IH.
      specialize (IH ltac:(intros y Hy; apply Ht; right; exact Hy) (a ++ [x])).
      rewrite app_length, Nat.add_1_r in IH.
      rewrite <- app_assoc in IH. cbn [app] in IH.
      destruct (eqb x v) eqn:Ex.
      + rewrite andb_true_r.
        replace (Z.of_nat (length a) <=? we - 1)%Z with (Z.of_nat (length a) <? we)%Z
          by (destruct (Z.ltb_spec (Z.of_nat (length a)) we); destruct (Z.leb_spec (Z.of_nat (length a)) (we - 1)); lia || reflexivity).
        destruct ((ws <=? Z.of_nat (length a)) && (Z.of_nat (length a) <? we))%Z eqn:Ew; [reflexivity|].
        destruct (Z.ltb_spec (we - 1) (Z.of_nat (length a))) as [Hs|Hs]; [|exact IH].
        rewrite find_none_all; [reflexivity|]. intros i Hi. apply in_seq in Hi. unfold hit.
        destruct (Z.ltb_spec (Z.of_nat i) we); [lia|]. rewrite andb_false_r. reflexivity.
      + rewrite andb_false_r. exact IH.
  Qed.

  Lemma window n start stop i : (0 <= i < n)%Z ->
    ((index_start start n <=? i) && (i <? index_stop stop n))%Z =
    ((win_start start n <=? i) && (i <? win_stop stop n))%Z.
  Proof.
    intros Hi. f_equal.
    - unfold index_start, win_start. destruct start as [z|]; [|reflexivity].
      destruct (Z.ltb_spec z 0) as [Hz|Hz].
      + destruct (Z.ltb_spec (z + n) 0); [rewrite Z.max_l by lia|rewrite Z.max_r by lia]; reflexivity.
      + destruct (Z.ltb_spec z 0); [lia|reflexivity].
    - unfold index_stop, win_stop. destruct stop as [z|].
      + destruct (Z.ltb_spec z 0) as [Hz|Hz].
        * destruct (Z.ltb_spec n (z + n)); [lia|reflexivity].
        * destruct (Z.ltb_spec n z); [|reflexivity].
          destruct (Z.ltb_spec i n); destruct (Z.ltb_spec i z); lia || reflexivity.
      + destruct (Z.ltb_spec n 0); [lia|]. destruct (Z.ltb_spec n n); [lia|reflexivity].
  Qed.

  Lemma sp_index_hit v start stop l :
    sp_index eqb v start stop l =
    match find (hit v (index_start start (Z.of_nat (length l))) (index_stop stop (Z.of_nat (length l))) l)
               (seq 0 (length l)) with Some i => Ok i | None => Err ValueError end.
  Proof.
    unfold sp_index. 
    match goal with |- match ?x with _ => _ end = match ?y with _ => _ end => assert (x = y) as -> end; [|reflexivity].
    assert (G : forall L, (forall i, In i L -> i < length l) ->
      find (fun i => ((win_start start (Z.of_nat (length l)) <=? Z.of_nat i)
                          && (Z.of_nat i <? win_stop stop (Z.of_nat (length l))))%Z
                         && match nth_error l i with Some e => eqb e v | None => false end) L
      = find (hit v (index_start start (Z.of_nat (length l))) (index_stop stop (Z.of_nat (length l))) l) L).
    { induction L as [|i L IH]; intros HL; [reflexivity|]. cbn [find]. unfold hit at 1.
      rewrite window by (specialize (HL i (or_introl eq_refl)); lia).
      destruct (_ && _); [reflexivity|]. apply IH. intros; apply HL; right; assumption. }
    apply G. intros i Hi. apply in_seq in Hi. lia.
  Qed.

  (** Only the run of ties matters. *)
  Lemma hit_ties v ws we a t b :
    (forall x, In x a -> eqb x v = false) -> (forall x, In x b -> eqb x v = false) ->
    find (hit v ws we (a ++ t ++ b)) (seq 0 (length (a ++ t ++ b))) =
    find (hit v ws we (a ++ t ++ b)) (seq (length a) (length t)).
  Proof.
    intros Ha Hb. rewrite !app_length, find_seq_app, seq_app.
    rewrite find_none_all.
    - assert (G : forall f L1 L2, (forall i, In i L2 -> f i = false) -> find f (L1 ++ L2) = @find nat f L1).
      { intros f L1 L2 H. induction L1 as [|i L1 IH]; [apply find_none_all; exact H|].
        cbn. destruct (f i); [reflexivity|exact IH]. }
      apply G. intros i Hi. apply in_seq in Hi. unfold hit.
      rewrite nth_error_app2, nth_error_app2 by lia.
      destruct (nth_error b (i - length a - length t)) as [x|] eqn:E; [|apply andb_false_r].
      apply nth_error_In in E. rewrite (Hb x E). apply andb_false_r.
    - intros i Hi. apply in_seq in Hi. unfold hit. rewrite nth_error_app1 by lia.
      destruct (nth_error a i) as [x|] eqn:E; [|apply andb_false_r].
      apply nth_error_In in E. rewrite (Ha x E). apply andb_false_r.
  Qed.

  Lemma hit_empty_window v ws we l L : (we <= ws)%Z -> find (hit v ws we l) L = None.
  Proof.
    intros H. apply find_none_all. intros i _. unfold hit.
    destruct (Z.leb_spec ws (Z.of_nat i)); destruct (Z.ltb_spec (Z.of_nat i) we); try reflexivity. lia.
  Qed.

  Lemma skl_index_ok v start stop s : Shape s -> sorted ltb (contents (kc s)) ->
    exists s', skl_index eq klt keq kf v start stop s = (sp_index eqb v start stop (contents (kc s)), s') /\ ktouch s s'.
  Proof.
    intros HS Hs. pose proof HS as (rows & H & Hl). unfold skl_index. rewrite bind_get.
    assert (Hrefl : ktouch s s) by (apply (ktouch_refl kf); exact HS).
    rewrite sp_index_hit. rewrite <- Hl.
    destruct (Nat.eqb_spec (len (kc s)) 0) as [Hz|Hnz].
    { exists s. split; [|exact Hrefl]. rewrite Hz. reflexivity. }
    cbv zeta. set (ws := index_start start _). set (we := index_stop stop _).
    destruct (Z.leb_spec we ws) as [Hw|Hw].
    { exists s. rewrite hit_empty_window by exact Hw. auto. }
    assert (Hkv : kf v = Ok (key v)) by reflexivity. rewrite (bind_lift _ _ _ _ Hkv). rewrite Hl.
    destruct (search_left (key v) s HS Hs) as (pos & Hp & [(-> & Hall & Hlt)|(Hlt & ks & l & idx & G1 & G2 & G3 & G4 & HL)]).
    - rewrite (bind_lift _ _ _ _ Hp), Nat.eqb_refl. exists s. split; [|exact Hrefl].
      rewrite find_none_all; [reflexivity|]. intros i Hi. unfold hit.
      destruct (nth_error (contents (kc s)) i) as [x|] eqn:E; [|apply andb_false_r].
      apply nth_error_In in E. rewrite (ltb_not_eq _ _ (Hlt x E)). apply andb_false_r.
    - rewrite (bind_lift _ _ _ _ Hp). destruct (Nat.eqb_spec pos (length (maxes (kc s)))); [lia|].
      rewrite (bind_lift _ _ _ _ G1), (bind_lift _ _ _ _ G4). rewrite G3.
      destruct (index_loop_ok eq klt keq kf rows (key v) v ws (we - 1) (scan_fuel s) s pos idx _ l HS H HL G2
                  (scan_fuel_ok kf s rows _ H)) as (s' & Hi & T).
      exists s'. split; [|exact T]. rewrite Hi. f_equal.
      destruct (rank_split v (contents (kc s)) Hs) as (a & t & b & E & Ha & Hta & Ht & Htb).
      rewrite <- Ha. rewrite E. rewrite skipn_app_len, (iscan_total v ws we t b Ht Htb).
      rewrite hit_ties; [reflexivity| |].
      + intros x Hx. apply ltb_not_eq, Hta, Hx.
      + intros x Hx. apply gtb_not_eq, Htb, Hx.
  Qed.

  (** ** irange *)
  Lemma filter_window {A} (lo hi : A -> bool) l : MonoOn lo l -> MonoOn (fun x => negb (hi x)) l ->
    filter (fun x => lo x && hi x) l =
    slicen l (length (filter (fun x => negb (lo x)) l)) (length (filter hi l)).
  Proof.
    induction l as [|x l IH]; intros M1 M2; [reflexivity|].
    apply StronglySorted_inv in M1 as [M1 F1]. apply StronglySorted_inv in M2 as [M2 F2].
    rewrite Forall_forall in F1, F2. cbn [filter].
    destruct (lo x) eqn:E1; cbn [andb negb].
    - assert (Hlo : forall y, In y l -> lo y = true) by (intros y Hy; apply (F1 y Hy); reflexivity).
      rewrite (filter_none (fun y => negb (lo y))) by (intros y Hy; rewrite Hlo by exact Hy; reflexivity).
      cbn [length]. destruct (hi x) eqn:E2.
      + cbn [length]. specialize (IH M1 M2).
        rewrite (filter_none (fun y => negb (lo y))) in IH by (intros y Hy; rewrite Hlo by exact Hy; reflexivity).
        rewrite IH. unfold slicen. cbn [length skipn]. rewrite !Nat.sub_0_r. reflexivity.
      + assert (Hhi : forall y, In y l -> hi y = false).
        { intros y Hy. apply negb_true_iff. apply (F2 y Hy). reflexivity. }
        rewrite (filter_none hi) by exact Hhi. cbn.
        apply filter_none. intros y Hy. rewrite (Hhi y Hy). apply andb_false_r.
    - cbn [length]. destruct (hi x) eqn:E2.
      + cbn [length]. rewrite IH by assumption. reflexivity.
      + assert (Hhi : forall y, In y l -> hi y = false).
        { intros y Hy. apply negb_true_iff. apply (F2 y Hy). reflexivity. }
        rewrite (filter_none hi) by exact Hhi. rewrite slicen_nil by (cbn; lia).
        apply filter_none. intros y Hy. rewrite (Hhi y Hy). apply andb_false_r.
  Qed.

  Lemma filter_length_le {A} (f : A -> bool) l : length (filter f l) <= length l.
  Proof. induction l as [|x l IH]; cbn; [lia|]. destruct (f x); cbn; lia. Qed.

  Lemma bnd_end s rows : Shape0 kf s rows -> is_nil (maxes (kc s)) = false ->
    exists l ks, getn (keys s) (length (maxes (kc s)) - 1) = Ok ks /\
      getn (lists (kc s)) (length (maxes (kc s)) - 1) = Ok l /\ length ks = length l /\
      Bnd (lists (kc s)) (length (maxes (kc s)) - 1) (length l) (length (contents (kc s))).
  Proof.
    intros H En. rewrite (sh_maxes _ _ _ H) in *. rewrite map_length.
    destruct rows as [|r0 rows0]; [discriminate|].
    destruct (exists_last (l := r0 :: rows0)) as (R & r & E); [discriminate|]. rewrite E in H |- *.
    exists (r_l r), (r_k r). rewrite app_length. cbn [length].
    replace (length R + 1 - 1) with (length R) by lia.
    split; [rewrite (sh_keys _ _ _ H); apply getn_mid|].
    split; [rewrite (sh_lists _ _ _ H); apply getn_mid|].
    assert (Hr : row_ok kf r).
    { pose proof (sh_rows _ _ _ H) as HR. rewrite Forall_app in HR. destruct HR as [_ HR]. inversion HR; assumption. }
    split; [apply (row_ok_len _ _ Hr)|].
    exists (map r_l R), (r_l r), []. split; [rewrite (sh_lists _ _ _ H), map_app; reflexivity|].
    split; [apply map_length|]. split; [lia|].
    unfold contents. rewrite (sh_lists _ _ _ H), map_app, concat_app. cbn. rewrite app_nil_r, app_length. reflexivity.
  Qed.

  Lemma irange_key_ok mn mx imin imax reverse s : Shape s -> sorted ltb (contents (kc s)) ->
    skl_irange_key klt mn mx imin imax reverse s
    = (Ok (sp_irange_key key kltb mn mx imin imax reverse (contents (kc s))), s).
  Proof.
    intros HS Hs. pose proof HS as (rows & H & Hl). unfold skl_irange_key. rewrite bind_get. cbv zeta.
    destruct (is_nil (maxes (kc s))) eqn:En.
    { rewrite (maxes_nil_contents s HS En). unfold sp_irange_key. cbn. destruct reverse; reflexivity. }
    destruct (bnd_end s rows H En) as (lE & ksE & KE & LE & SE & BE).
    unfold sp_irange_key.
    set (lo := fun e => match mn with None => true | Some m => if imin then negb (kltb (key e) m) else kltb m (key e) end).
    set (hi := fun e => match mx with None => true | Some m => if imax then negb (kltb m (key e)) else kltb (key e) m end).
    assert (M1 : MonoOn lo (contents (kc s))).
    { unfold lo. destruct mn as [m|].
      - destruct imin; [apply mono_left|apply mono_right]; exact Hs.
      - apply sorted_mono with (1 := Hs). reflexivity. }
    assert (M2 : MonoOn (fun e => negb (hi e)) (contents (kc s))).
    { unfold hi. destruct mx as [m|].
      - destruct imax.
        + pose proof (mono_right m _ Hs) as M. eapply sorted_mono with (1 := Hs).
          intros x y H1 H2. rewrite negb_involutive in *. unfold by_key in H1. eapply swo_lt_le; eauto.
        + apply mono_left. exact Hs.
      - apply sorted_mono with (1 := Hs). intros; discriminate. }
    cbv zeta. match goal with |- context [filter ?f (contents (kc s))] => change f with (fun x => lo x && hi x) end.
    rewrite (filter_window lo hi _ M1 M2).
    set (na := length (filter (fun x => negb (lo x)) (contents (kc s)))).
    set (nb := length (filter hi (contents (kc s)))).
    (* lower bound *)
    match goal with |- bind ?m _ s = _ => set (mmin := m) end.
    assert (HMin : (mmin s = (Ok None, s) /\ na = length (contents (kc s))) \/
                   exists p i, mmin s = (Ok (Some (p, i)), s) /\ Bnd (lists (kc s)) p i na).
    { unfold mmin. clear mmin. unfold na, lo. destruct mn as [m|].
      - destruct imin.
        + destruct (search_left m s HS Hs) as (pos & Hp & [(-> & Hall & _)|(Hlt & ks & l & idx & G1 & G2 & G3 & G4 & HL)]).
          * left. rewrite (bind_lift _ _ _ _ Hp), Nat.eqb_refl. split; [reflexivity|].
            rewrite filter_ext_negb. exact Hall.
          * right. rewrite (bind_lift _ _ _ _ Hp). destruct (Nat.eqb_spec pos (length (maxes (kc s)))); [lia|].
            rewrite (bind_lift _ _ _ _ G1), (bind_lift _ _ _ _ G4). exists pos, idx. split; [reflexivity|].
            rewrite filter_ext_negb. apply locate_bnd. exact HL.
        + destruct (search_right m s HS Hs) as (pos & Hp & [(-> & Hall)|(Hlt & ks & idx & G1 & G4 & HL)]).
          * left. rewrite (bind_lift _ _ _ _ Hp), Nat.eqb_refl. split; [reflexivity|]. exact Hall.
          * right. rewrite (bind_lift _ _ _ _ Hp). destruct (Nat.eqb_spec pos (length (maxes (kc s)))); [lia|].
            rewrite (bind_lift _ _ _ _ G1), (bind_lift _ _ _ _ G4). exists pos, idx. split; [reflexivity|].
            apply locate_bnd. exact HL.
      - right. exists 0, 0. split; [reflexivity|]. rewrite filter_none by reflexivity.
        destruct BE as (X & l & Y & E & _). destruct (lists (kc s)) as [|l0 L]; [destruct X; discriminate|].
        exists [], l0, L. cbn. split; [reflexivity|]. split; [reflexivity|]. split; [lia|reflexivity]. }
    destruct HMin as [[Hm Hna]|(p & i & Hm & HB)]; rewrite (bind_ok _ _ _ _ _ Hm).
    { rewrite slicen_nil; [destruct reverse; reflexivity|].
      rewrite Hna. unfold nb. apply filter_length_le. }
    (* upper bound *)
    match goal with |- bind ?m _ s = _ => set (mmax := m) end.
    assert (HMax : exists p' i', mmax s = (Ok (p', i'), s) /\ Bnd (lists (kc s)) p' i' nb).
    { unfold mmax. clear mmax. unfold nb, hi. destruct mx as [m|].
      - destruct imax.
        + destruct (search_right m s HS Hs) as (pos & Hp & [(-> & Hall)|(Hlt & ks & idx & G1 & G4 & HL)]).
          * rewrite (bind_lift _ _ _ _ Hp), Nat.eqb_refl. rewrite (bind_lift _ _ _ _ KE), SE.
            eexists _, _. split; [reflexivity|]. unfold sp_bisect_key_right in Hall. rewrite Hall. exact BE.
          * rewrite (bind_lift _ _ _ _ Hp). destruct (Nat.eqb_spec pos (length (maxes (kc s)))); [lia|].
            rewrite (bind_lift _ _ _ _ G1), (bind_lift _ _ _ _ G4). exists pos, idx. split; [reflexivity|].
            apply locate_bnd. exact HL.
        + destruct (search_left m s HS Hs) as (pos & Hp & [(-> & Hall & _)|(Hlt & ks & l & idx & G1 & G2 & G3 & G4 & HL)]).
          * rewrite (bind_lift _ _ _ _ Hp), Nat.eqb_refl. rewrite (bind_lift _ _ _ _ KE), SE.
            eexists _, _. split; [reflexivity|]. unfold sp_bisect_key_left in Hall. rewrite Hall. exact BE.
          * rewrite (bind_lift _ _ _ _ Hp). destruct (Nat.eqb_spec pos (length (maxes (kc s)))); [lia|].
            rewrite (bind_lift _ _ _ _ G1), (bind_lift _ _ _ _ G4). exists pos, idx. split; [reflexivity|].
            apply locate_bnd. exact HL.
      - rewrite (bind_lift _ _ _ _ KE), SE. eexists _, _. split; [reflexivity|].
        rewrite filter_all by reflexivity. exact BE. }
    destruct HMax as (p' & i' & Hx & HB'). rewrite (bind_ok _ _ _ _ _ Hx). cbn [fst snd].
    unfold liftr. rewrite (islice_pairs_ok _ _ _ _ _ _ _ reverse HB HB'). reflexivity.
  Qed.

  Lemma irange_ok mn mx imin imax reverse s : Shape s -> sorted ltb (contents (kc s)) ->
    skl_irange klt kf mn mx imin imax reverse s
    = (Ok (sp_irange ltb mn mx imin imax reverse (contents (kc s))), s).
  Proof.
    intros HS Hs. unfold skl_irange.
    assert (Hk : forall o, key_opt kf o = Ok (option_map key o)) by (intros [v|]; reflexivity).
    rewrite (bind_lift _ _ _ _ (Hk mn)), (bind_lift _ _ _ _ (Hk mx)).
    rewrite irange_key_ok by assumption. unfold sp_irange, sp_irange_key.
    destruct mn, mx; reflexivity.
  Qed.
End KeyTotalLook.

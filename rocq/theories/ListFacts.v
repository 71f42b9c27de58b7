(** * SortedList under a total order (proofs) *)
From Verif Require Import PyBase BaseFacts Spec SpecFacts SliceFacts Model IndexFacts Shape CoreFacts VtFacts KeyFacts KeyLook ListSim.
From Coq Require Import Sorting.Permutation Sorting.Sorted.
Local Unset Implicit Arguments.

Lemma locate_same {A} (ls : list (list A)) p i j i' j' :
  Locate ls p i j -> Locate ls p i' j' -> j + i' = j' + i.
Proof.
  intros (X & l & Y & E & Hp & Hi & Hj) (X' & l' & Y' & E' & Hp' & Hi' & Hj').
  rewrite E in E'. destruct (split_same _ _ _ _ _ _ E') as (<- & _ & _); [congruence|]. lia.
Qed.

Lemma tie_total {V} (ltb : V -> V -> bool) : SWO ltb -> TotalOrder ltb (tie ltb).
Proof. intros H. constructor; [exact H|reflexivity]. Qed.

Section ListTotal.
  Context {V : Type}.
  Variable ltb : V -> V -> bool.
  Hypothesis HO : SWO ltb.
  Notation lt := (total2 ltb).
  Notation SL := (core V V).

  Lemma sl_add_ok v (c : SL) : LShape c -> sorted ltb (contents c) ->
    exists c', sl_add lt v c = (Ok tt, c') /\ LShape c' /\
      contents c' = sp_add ltb v (contents c) /\ load c' = load c.
  Proof.
    intros H Hs. destruct (skl_add_ok (fun v => v) ltb HO v (embed c) H Hs) as (s' & H1 & H2 & H3 & H4).
    pose proof (sim_add lt v c) as S. unfold SimAt in S. change ident with (total1 (fun v : V => v)) in S.
    rewrite H1 in S. injection S as S1 S2. exists (snd (sl_add lt v c)).
    rewrite (surjective_pairing (sl_add lt v c)) at 1. rewrite <- S1. rewrite S2 in *. auto.
  Qed.

  Lemma sl_adds_ok vs (c : SL) : LShape c -> sorted ltb (contents c) ->
    exists c', forM (sl_add lt) vs c = (Ok tt, c') /\ LShape c' /\
      contents c' = sp_update ltb vs (contents c) /\ load c' = load c.
  Proof.
    intros H Hs. destruct (skl_adds_ok (fun v => v) ltb HO vs (embed c) H Hs) as (s' & H1 & H2 & H3 & H4).
    pose proof (sim_adds lt vs c) as S. unfold SimAt in S. change ident with (total1 (fun v : V => v)) in S.
    rewrite H1 in S. injection S as S1 S2. exists (snd (forM (sl_add lt) vs c)).
    rewrite (surjective_pairing (forM (sl_add lt) vs c)) at 1. rewrite <- S1. rewrite S2 in *. auto.
  Qed.

  Lemma sl_update_ok it (c : SL) : LShape c -> sorted ltb (contents c) ->
    exists c', sl_update lt it c = (Ok tt, c') /\ LShape c' /\
      contents c' = sp_update ltb it (contents c) /\ load c' = load c.
  Proof.
    intros HS Hs. unfold sl_update.
    rewrite (bind_lift _ _ _ _ (py_sorted_sp _ HO it)). rewrite bind_get.
    assert (Hld : 1 <= load c) by (apply lshape_load; exact HS).
    destruct (is_nil (maxes c)) eqn:Hnil.
    { destruct (lshape_nil_state c HS Hnil) as (ix & off & Es).
      assert (Hc : contents c = []) by (rewrite Es; reflexivity).
      destruct (sl_fill_ok (sp_sort ltb it) ix off (load c) 0 Hld) as (s' & H1 & H2 & H3 & H4).
      rewrite <- Es in H1. exists s'. split; [exact H1|]. split; [exact H2|]. split; [|exact H4].
      rewrite H3, Hc. reflexivity. }
    destruct (Nat.leb_spec (len c) (length (sp_sort ltb it) * 4)) as [Hb|Hb].
    - unfold bind at 1, modify at 1. rewrite bind_get.
      rewrite (bind_lift _ _ _ _ (py_sorted_sp _ HO _)). unfold bind at 1, sl_clear, modify. ev.
      destruct (sl_fill_ok (sp_sort ltb (concat (lists c ++ [sp_sort ltb it]))) [] 0 (load c) 0 Hld)
        as (s' & H1 & H2 & H3 & H4).
      exists s'. split; [exact H1|]. split; [exact H2|]. split; [|exact H4].
      rewrite H3, concat_app. cbn [concat]. rewrite app_nil_r. apply (sp_sort_app_r _ HO).
    - destruct (sl_adds_ok (sp_sort ltb it) c HS Hs) as (s' & H1 & H2 & H3 & H4).
      exists s'. split; [exact H1|]. split; [exact H2|]. split; [|exact H4].
      rewrite H3. apply (sp_sort_app_r _ HO).
  Qed.

  Lemma sl_update_vt : UpdateOK (sl_vt lt) LShape ltb.
  Proof. intros it s H1 H2. apply sl_update_ok; assumption. Qed.

  Lemma sl_new_ok dflt l : 1 <= dflt ->
    exists c, sl_new lt dflt l = Ok c /\ LShape c /\ contents c = sp_sort ltb l /\ load c = dflt.
  Proof.
    intros Hd. unfold sl_new.
    destruct (sl_update_ok l (core_empty dflt)) as (s & H1 & H2 & H3 & H4).
    - apply lshape_empty. exact Hd.
    - apply sorted_nil.
    - rewrite H1. exists s. auto.
  Qed.

  (** ** Searching *)
  Lemma lsearch_left v (c : SL) : LShape c -> sorted ltb (contents c) ->
    exists pos, bisect_left lt (maxes c) v = Ok pos /\
      ((pos = length (maxes c) /\ sp_bisect_left ltb v (contents c) = length (contents c) /\
        forall x, In x (contents c) -> ltb x v = true) \/
       (pos < length (maxes c) /\ exists l idx, getn (lists c) pos = Ok l /\
          bisect_left lt l v = Ok idx /\
          Locate (lists c) pos idx (sp_bisect_left ltb v (contents c)))).
  Proof.
    intros H Hs.
    destruct (search_left (fun v => v) ltb (tie ltb) (tie_total ltb HO) v (embed c) H Hs)
      as (pos & Hp & [(E & Hall & Hlt)|(Hlt & ks & l & idx & G1 & G2 & G3 & G4 & HL)]).
    - exists pos. split; [exact Hp|]. left. auto.
    - exists pos. split; [exact Hp|]. right. split; [exact Hlt|]. exists ks, idx. auto.
  Qed.
  Lemma lsearch_right v (c : SL) : LShape c -> sorted ltb (contents c) ->
    exists pos, bisect_right lt (maxes c) v = Ok pos /\
      ((pos = length (maxes c) /\ sp_bisect_right ltb v (contents c) = length (contents c)) \/
       (pos < length (maxes c) /\ exists l idx, getn (lists c) pos = Ok l /\
          bisect_right lt l v = Ok idx /\
          Locate (lists c) pos idx (sp_bisect_right ltb v (contents c)))).
  Proof.
    intros H Hs.
    destruct (search_right (fun v => v) ltb (tie ltb) (tie_total ltb HO) v (embed c) H Hs)
      as (pos & Hp & [(E & Hall)|(Hlt & ks & idx & G1 & G4 & HL)]).
    - exists pos. split; [exact Hp|]. left. auto.
    - exists pos. split; [exact Hp|]. right. split; [exact Hlt|]. exists ks, idx. auto.
  Qed.

  Lemma lmaxes_nil_contents (c : SL) : LShape c -> is_nil (maxes c) = true -> contents c = [].
  Proof. intros H E. destruct (lshape_nil_state c H E) as (ix & off & ->). reflexivity. Qed.

  Lemma sl_bisect_left_ok v (c : SL) : LShape c -> sorted ltb (contents c) ->
    exists c', sl_bisect_left lt v c = (Ok (sp_bisect_left ltb v (contents c)), c') /\ touch c c'.
  Proof.
    intros H Hs. unfold sl_bisect_left. rewrite bind_get. pose proof (lshape_core c H) as HC.
    assert (Hrefl : touch c c) by (apply touch_refl; exact HC).
    destruct (is_nil (maxes c)) eqn:En.
    { rewrite (lmaxes_nil_contents c H En). exists c. auto. }
    destruct (lsearch_left v c H Hs) as (pos & Hp & [(-> & Hall & _)|(Hlt & l & idx & G1 & G4 & HL)]).
    - rewrite (bind_lift _ _ _ _ Hp), Nat.eqb_refl, Hall. exists c. rewrite (co_len _ HC). auto.
    - rewrite (bind_lift _ _ _ _ Hp). destruct (Nat.eqb_spec pos (length (maxes c))); [lia|].
      rewrite (bind_lift _ _ _ _ G1), (bind_lift _ _ _ _ G4).
      apply loc_ok; [exact HC|apply locate_bnd; exact HL].
  Qed.
  Lemma sl_bisect_right_ok v (c : SL) : LShape c -> sorted ltb (contents c) ->
    exists c', sl_bisect_right lt v c = (Ok (sp_bisect_right ltb v (contents c)), c') /\ touch c c'.
  Proof.
    intros H Hs. unfold sl_bisect_right. rewrite bind_get. pose proof (lshape_core c H) as HC.
    assert (Hrefl : touch c c) by (apply touch_refl; exact HC).
    destruct (is_nil (maxes c)) eqn:En.
    { rewrite (lmaxes_nil_contents c H En). exists c. auto. }
    destruct (lsearch_right v c H Hs) as (pos & Hp & [(-> & Hall)|(Hlt & l & idx & G1 & G4 & HL)]).
    - rewrite (bind_lift _ _ _ _ Hp), Nat.eqb_refl, Hall. exists c. rewrite (co_len _ HC). auto.
    - rewrite (bind_lift _ _ _ _ Hp). destruct (Nat.eqb_spec pos (length (maxes c))); [lia|].
      rewrite (bind_lift _ _ _ _ G1), (bind_lift _ _ _ _ G4).
      apply loc_ok; [exact HC|apply locate_bnd; exact HL].
  Qed.

  (** ** irange *)
  Lemma sim_irange mn mx imin imax reverse (c : SL) :
    SimAt c (sl_irange lt mn mx imin imax reverse) (skl_irange_key lt mn mx imin imax reverse).
  Proof.
    unfold SimAt, sl_irange, skl_irange_key. rewrite !bind_get. cbv zeta. cbn [embed kc keys].
    destruct (is_nil (maxes c)); [reflexivity|].
    match goal with |- bind ?m ?k (embed c) = (fst (bind ?m' ?k' c), _) =>
      set (m1 := m); set (m2 := m'); set (k1 := k); set (k2 := k') end.
    assert (Hm : m1 (embed c) = (fst (m2 c), embed c) /\ snd (m2 c) = c).
    { unfold m1, m2. destruct mn as [m|]; [|split; reflexivity]. unfold bind, liftr, ret.
      destruct ((if imin then bisect_left lt else bisect_right lt) (maxes c) m) as [p|e]; [|split; reflexivity].
      destruct (p =? length (maxes c)); [split; reflexivity|].
      destruct (getn (lists c) p) as [l|e]; [|split; reflexivity].
      destruct ((if imin then bisect_left lt else bisect_right lt) l m); split; reflexivity. }
    unfold bind at 1. destruct Hm as [Hm Hm']. rewrite Hm. unfold bind at 1 2.
    rewrite (surjective_pairing (m2 c)). rewrite Hm'. cbn [fst].
    destruct (fst (m2 c)) as [[[p i]|]|e]; [|reflexivity|reflexivity].
    unfold k1, k2. clear.
    match goal with |- bind ?m ?k (embed c) = (fst (bind ?m' ?k' c), _) =>
      set (m1 := m); set (m2 := m'); set (k1 := k); set (k2 := k') end.
    assert (Hm : m1 (embed c) = (fst (m2 c), embed c) /\ snd (m2 c) = c).
    { unfold m1, m2. unfold bind, liftr, ret. destruct mx as [m|].
      - destruct ((if imax then bisect_right lt else bisect_left lt) (maxes c) m) as [q|e]; [|split; reflexivity].
        destruct (q =? length (maxes c)).
        + destruct (getn (lists c) (q - 1)); split; reflexivity.
        + destruct (getn (lists c) q) as [l|e]; [|split; reflexivity].
          destruct ((if imax then bisect_right lt else bisect_left lt) l m); split; reflexivity.
      - destruct (getn (lists c) (length (maxes c) - 1)); split; reflexivity. }
    unfold bind at 1. destruct Hm as [Hm Hm']. rewrite Hm. unfold bind at 1 2.
    rewrite (surjective_pairing (m2 c)). rewrite Hm'. cbn [fst].
    destruct (fst (m2 c)) as [q|e]; reflexivity.
  Qed.

  Lemma sl_irange_ok mn mx imin imax reverse (c : SL) : LShape c -> sorted ltb (contents c) ->
    sl_irange lt mn mx imin imax reverse c = (Ok (sp_irange ltb mn mx imin imax reverse (contents c)), c).
  Proof.
    intros H Hs. pose proof (sim_irange mn mx imin imax reverse c) as S. unfold SimAt in S.
    rewrite (irange_key_ok (fun v => v) ltb (tie ltb) (tie_total ltb HO)
               mn mx imin imax reverse (embed c) H Hs) in S.
    injection S as S1 S2. rewrite (surjective_pairing (sl_irange lt mn mx imin imax reverse c)), <- S1, <- S2.
    reflexivity.
  Qed.
End ListTotal.

(** ** Operations that use equality *)
Section ListTotalEq.
  Context {V : Type}.
  Variables ltb eqb : V -> V -> bool.
  Hypothesis HT : TotalOrder ltb eqb.
  Notation lt := (total2 ltb).
  Notation eq := (total2 eqb).
  Notation SL := (core V V).
  Let HO : SWO ltb := to_swo HT.
  Let HE : EqCompat ltb eqb.
  Proof.
    intros x y H. rewrite (to_eq HT), andb_true_iff, !negb_true_iff in H. exact H.
  Qed.

  Lemma eqb_tie x y : eqb x y = tie ltb x y.
  Proof. rewrite (to_eq HT). reflexivity. Qed.

  Lemma lrank_split v l : sorted ltb l ->
    exists a t b, l = a ++ t ++ b /\ length a = sp_bisect_left ltb v l /\
      length (a ++ t) = sp_bisect_right ltb v l /\
      (forall x, In x a -> ltb x v = true) /\
      (forall x, In x t -> eqb x v = true) /\
      (forall x, In x b -> ltb v x = true).
  Proof.
    intros H. destruct (rank_split (fun v => v) ltb eqb HT v l H) as (a & t & b & E & Ha & H1 & H2 & H3).
    exists a, t, b. split; [exact E|]. split; [exact Ha|]. split; [|split; [exact H1|split; [|exact H3]]].
    - rewrite E. unfold sp_bisect_right. rewrite app_assoc, filter_app, (filter_none _ b), app_nil_r.
      + rewrite filter_all; [reflexivity|]. intros x Hx. apply in_app_or in Hx as [Hx|Hx].
        * rewrite (swo_asym _ HO _ _ (H1 x Hx)). reflexivity.
        * apply H2 in Hx. apply tie_true in Hx. unfold by_key in Hx. rewrite (proj2 Hx). reflexivity.
      + intros x Hx. unfold by_key in H3. rewrite (H3 x Hx). reflexivity.
    - intros x Hx. rewrite eqb_tie. apply (H2 x Hx).
  Qed.

  Lemma lltb_not_eq x v : ltb x v = true -> eqb x v = false.
  Proof. intros H. destruct (eqb x v) eqn:E; [|reflexivity]. apply HE in E as [E _]. congruence. Qed.
  Lemma lgtb_not_eq x v : ltb v x = true -> eqb x v = false.
  Proof. intros H. destruct (eqb x v) eqn:E; [|reflexivity]. apply HE in E as [_ E]. congruence. Qed.

  (** The outcome of the search common to [__contains__], [discard], [remove]
      and [index]. *)
  Lemma lfind v (c : SL) : LShape c -> sorted ltb (contents c) ->
    exists pos, bisect_left lt (maxes c) v = Ok pos /\
    ((pos = length (maxes c) /\ forall x, In x (contents c) -> eqb x v = false) \/
     (pos < length (maxes c) /\ exists l idx x, getn (lists c) pos = Ok l /\
        bisect_left lt l v = Ok idx /\ getn l idx = Ok x /\
        Locate (lists c) pos idx (sp_bisect_left ltb v (contents c)) /\
        ((eqb x v = false /\ forall x, In x (contents c) -> eqb x v = false) \/
         (eqb x v = true /\ exists a b, contents c = a ++ x :: b /\
            length a = sp_bisect_left ltb v (contents c) /\ forall y, In y a -> eqb y v = false)))).
  Proof.
    intros H Hs.
    destruct (lsearch_left ltb HO v c H Hs) as (pos & Hp & [(-> & Hall & Hlt)|(Hlt & l & idx & G1 & G4 & HL)]).
    - exists (length (maxes c)). split; [exact Hp|]. left. split; [reflexivity|].
      intros x Hx. apply lltb_not_eq, Hlt, Hx.
    - exists pos. split; [exact Hp|]. right. split; [exact Hlt|].
      destruct (locate_split (sl_vt lt) c pos idx _ HL) as (a & x & b & l' & E & Ha & Hl' & Hx).
      cbn [sl_vt vt_get] in Hl', E. assert (l' = l) by congruence. subst l'. unfold vcont in E. cbn in E.
      exists l, idx, x. split; [exact G1|]. split; [exact G4|]. split; [exact Hx|]. split; [exact HL|].
      destruct (lrank_split v (contents c) Hs) as (a' & t & b' & E' & Ha' & _ & H1 & H2 & H3).
      destruct t as [|y t].
      + left. destruct b' as [|y b'].
        * exfalso. apply (f_equal (@length V)) in E, E'. rewrite !app_length in E, E'. cbn in E, E'. lia.
        * assert (x = y).
          { rewrite E' in E. cbn [app] in E. destruct (split_same _ _ _ _ _ _ E) as (_ & -> & _); [|reflexivity].
            rewrite Ha, Ha'. reflexivity. }
          subst y. split; [apply lgtb_not_eq, H3; left; reflexivity|].
          intros z Hz. rewrite E' in Hz. cbn [app] in Hz. apply in_app_or in Hz as [Hz|Hz].
          -- apply lltb_not_eq, H1, Hz.
          -- apply lgtb_not_eq, H3, Hz.
      + right. cbn [app] in E'. 
        assert (a' = a /\ y = x /\ t ++ b' = b) as (-> & -> & <-).
        { rewrite E' in E. apply (split_same _ _ _ _ _ _ E). rewrite Ha, Ha'. reflexivity. }
        split; [apply H2; left; reflexivity|]. exists a, (t ++ b'). split; [exact E|]. split; [exact Ha'|].
        intros z Hz. apply lltb_not_eq, H1, Hz.
  Qed.

  Lemma sl_contains_ok v (c : SL) : LShape c -> sorted ltb (contents c) ->
    sl_contains lt eq v c = (Ok (sp_contains eqb v (contents c)), c).
  Proof.
    intros H Hs. unfold sl_contains. rewrite bind_get.
    destruct (is_nil (maxes c)) eqn:En; [rewrite (lmaxes_nil_contents c H En); reflexivity|].
    destruct (lfind v c H Hs) as (pos & Hp & [[-> Hn]|(Hlt & l & idx & x & G1 & G2 & G3 & HL & Hc)]).
    - rewrite (bind_lift _ _ _ _ Hp), Nat.eqb_refl. rewrite sp_contains_false by exact Hn. reflexivity.
    - rewrite (bind_lift _ _ _ _ Hp). destruct (Nat.eqb_spec pos (length (maxes c))); [lia|].
      rewrite (bind_lift _ _ _ _ G1), (bind_lift _ _ _ _ G2), (bind_lift _ _ _ _ G3).
      unfold liftr, total2. destruct Hc as [[Ex Hn]|(Ex & a & b & E & _ & _)].
      + rewrite Ex, sp_contains_false by exact Hn. reflexivity.
      + rewrite Ex. rewrite E, sp_contains_true by exact Ex. reflexivity.
  Qed.

  Lemma sl_discard_ok v (c : SL) : LShape c -> sorted ltb (contents c) ->
    exists c', sl_discard lt eq v c = (Ok tt, c') /\ LShape c' /\
      contents c' = sp_discard eqb v (contents c) /\ load c' = load c.
  Proof.
    intros H Hs. unfold sl_discard. rewrite bind_get.
    destruct (is_nil (maxes c)) eqn:En.
    { exists c. split; [reflexivity|]. split; [exact H|]. rewrite (lmaxes_nil_contents c H En). split; reflexivity. }
    destruct (lfind v c H Hs) as (pos & Hp & [[-> Hn]|(Hlt & l & idx & x & G1 & G2 & G3 & HL & Hc)]).
    - rewrite (bind_lift _ _ _ _ Hp), Nat.eqb_refl. rewrite sp_discard_none by exact Hn. exists c. auto.
    - rewrite (bind_lift _ _ _ _ Hp). destruct (Nat.eqb_spec pos (length (maxes c))); [lia|].
      rewrite (bind_lift _ _ _ _ G1), (bind_lift _ _ _ _ G2), (bind_lift _ _ _ _ G3).
      assert (Ge : eq x v = Ok (eqb x v)) by reflexivity. rewrite (bind_lift _ _ _ _ Ge).
      destruct Hc as [[Ex Hn]|(Ex & a & b & E & Ha & Hn)]; rewrite Ex.
      + rewrite sp_discard_none by exact Hn. exists c. auto.
      + rewrite <- Ha in HL.
        destruct (vo_delete _ _ (sl_vt_ok lt) c a x b pos idx H E HL) as (s' & H1 & H2 & H3 & H4).
        exists s'. split; [exact H1|]. split; [exact H2|]. split; [|exact H4].
        rewrite E, sp_discard_at by assumption. exact H3.
  Qed.

  Lemma sl_remove_ok v (c : SL) : LShape c -> sorted ltb (contents c) ->
    exists c', sl_remove lt eq v c = (fst (sp_remove eqb v (contents c)), c') /\ LShape c' /\
      contents c' = snd (sp_remove eqb v (contents c)) /\ load c' = load c.
  Proof.
    intros H Hs. unfold sl_remove, sp_remove. rewrite bind_get.
    destruct (is_nil (maxes c)) eqn:En.
    { exists c. rewrite (lmaxes_nil_contents c H En). split; [reflexivity|]. split; [exact H|]. split; reflexivity. }
    destruct (lfind v c H Hs) as (pos & Hp & [[-> Hn]|(Hlt & l & idx & x & G1 & G2 & G3 & HL & Hc)]).
    - rewrite (bind_lift _ _ _ _ Hp), Nat.eqb_refl. rewrite sp_contains_false by exact Hn. exists c. auto.
    - rewrite (bind_lift _ _ _ _ Hp). destruct (Nat.eqb_spec pos (length (maxes c))); [lia|].
      rewrite (bind_lift _ _ _ _ G1), (bind_lift _ _ _ _ G2), (bind_lift _ _ _ _ G3).
      assert (Ge : eq x v = Ok (eqb x v)) by reflexivity. rewrite (bind_lift _ _ _ _ Ge).
      destruct Hc as [[Ex Hn]|(Ex & a & b & E & Ha & Hn)]; rewrite Ex.
      + rewrite sp_contains_false by exact Hn. exists c. auto.
      + rewrite <- Ha in HL.
        destruct (vo_delete _ _ (sl_vt_ok lt) c a x b pos idx H E HL) as (s' & H1 & H2 & H3 & H4).
        exists s'. rewrite E, sp_contains_true by exact Ex. split; [exact H1|]. split; [exact H2|].
        split; [|exact H4]. cbn [snd]. rewrite sp_discard_at by assumption. exact H3.
  Qed.

  (** ** count *)
  Lemma count_ranks v l : sorted ltb l ->
    sp_bisect_left ltb v l <= sp_bisect_right ltb v l <= length l /\
    sp_count eqb v l = sp_bisect_right ltb v l - sp_bisect_left ltb v l.
  Proof.
    intros H. destruct (lrank_split v l H) as (a & t & b & E & Ha & Hat & H1 & H2 & H3).
    rewrite <- Ha, <- Hat. split.
    - rewrite E, !app_length. lia.
    - rewrite E. rewrite !sp_count_app, (sp_count_none eqb v a), (sp_count_none eqb v b), app_length.
      + unfold sp_count. rewrite filter_all by exact H2. lia.
      + intros x Hx. apply lgtb_not_eq, H3, Hx.
      + intros x Hx. apply lltb_not_eq, H1, Hx.
  Qed.

  Lemma subc_ok a b : b <= a -> subc a b = Ok (a - b).
  Proof. intros H. unfold subc. destruct (Nat.leb_spec b a); [reflexivity|lia]. Qed.

  Lemma sl_count_ok v (c : SL) : LShape c -> sorted ltb (contents c) ->
    exists c', sl_count lt v c = (Ok (sp_count eqb v (contents c)), c') /\ touch c c'.
  Proof.
    intros H Hs. unfold sl_count. rewrite bind_get. pose proof (lshape_core c H) as HC.
    assert (Hrefl : touch c c) by (apply touch_refl; exact HC).
    destruct (is_nil (maxes c)) eqn:En.
    { rewrite (lmaxes_nil_contents c H En). exists c. auto. }
    destruct (count_ranks v (contents c) Hs) as [Hr Hc]. rewrite Hc.
    destruct (lsearch_left ltb HO v c H Hs) as (pos & Hp & [(-> & Hall & Hlt)|(Hlt & l & idx & G1 & G4 & HL)]).
    - rewrite (bind_lift _ _ _ _ Hp), Nat.eqb_refl. exists c. split; [|exact Hrefl].
      unfold ret. do 2 f_equal. lia.
    - rewrite (bind_lift _ _ _ _ Hp). destruct (Nat.eqb_spec pos (length (maxes c))); [lia|].
      rewrite (bind_lift _ _ _ _ G1), (bind_lift _ _ _ _ G4).
      destruct (lsearch_right ltb HO v c H Hs) as (pos' & Hp' & [(-> & Hall)|(Hlt' & l' & idx' & G1' & G4' & HL')]).
      + rewrite (bind_lift _ _ _ _ Hp'), Nat.eqb_refl.
        destruct (loc_ok c pos idx _ HC (locate_bnd _ _ _ _ HL)) as (c1 & Hl & T).
        rewrite (bind_ok _ _ _ _ _ Hl). exists c1. split; [|exact T]. unfold liftr.
        rewrite (co_len _ HC), subc_ok by lia. rewrite Hall. reflexivity.
      + rewrite (bind_lift _ _ _ _ Hp'). destruct (Nat.eqb_spec pos' (length (maxes c))); [lia|].
        rewrite (bind_lift _ _ _ _ G1'), (bind_lift _ _ _ _ G4').
        destruct (Nat.eqb_spec pos pos') as [<-|Hne].
        * pose proof (locate_same _ _ _ _ _ _ HL HL') as HS.
          exists c. split; [|exact Hrefl]. unfold liftr. rewrite subc_ok by lia. do 2 f_equal. lia.
        * destruct (loc_ok c pos' idx' _ HC (locate_bnd _ _ _ _ HL')) as (c1 & Hl & T).
          rewrite (bind_ok _ _ _ _ _ Hl).
          pose proof (touch_lists _ _ T) as HL1. rewrite <- HL1 in HL.
          destruct (loc_ok c1 pos idx _ (touch_ok _ _ T HC) (locate_bnd _ _ _ _ HL)) as (c2 & Hl2 & T2).
          rewrite (bind_ok _ _ _ _ _ Hl2). exists c2. split; [|eapply touch_trans; eauto].
          unfold liftr. rewrite subc_ok by lia. reflexivity.
  Qed.

  (** ** index *)
  Lemma find_window (f : nat -> bool) ws we n : forall k,
    (forall i, k <= i < k + n -> f i = ((ws <=? Z.of_nat i) && (Z.of_nat i <? we))%Z) ->
    find f (seq k n) =
    let m := Z.max ws (Z.of_nat k) in
    if ((m <? we) && (m <? Z.of_nat (k + n)))%Z then Some (Z.to_nat m) else None.
  Proof.
    induction n as [|n IH]; intros k Hf.
    - cbn [seq find]. cbv zeta. destruct (Z.ltb_spec (Z.max ws (Z.of_nat k)) (Z.of_nat (k + 0))); [lia|].
      rewrite andb_false_r. reflexivity.
    - cbn [seq find]. cbv zeta. rewrite (Hf k) by lia.
      destruct (Z.leb_spec ws (Z.of_nat k)) as [H1|H1].
      + rewrite Z.max_r by lia. destruct (Z.ltb_spec (Z.of_nat k) we) as [H2|H2]; cbn [andb].
        * destruct (Z.ltb_spec (Z.of_nat k) (Z.of_nat (k + S n))); [|lia]. rewrite Nat2Z.id. reflexivity.
        * rewrite IH by (intros i Hi; apply Hf; lia). cbv zeta.
          destruct (Z.ltb_spec (Z.max ws (Z.of_nat (S k))) we); [lia|]. reflexivity.
      + cbn [andb]. rewrite IH by (intros i Hi; apply Hf; lia). cbv zeta.
        rewrite !Z.max_l by lia. replace (S k + n) with (k + S n) by lia. reflexivity.
  Qed.

  Lemma sp_index_ranks v start stop l : sorted ltb l ->
    let ws := index_start start (Z.of_nat (length l)) in
    let we := index_stop stop (Z.of_nat (length l)) in
    let m := Z.max ws (Z.of_nat (sp_bisect_left ltb v l)) in
    sp_index eqb v start stop l =
    if ((m <? we) && (m <? Z.of_nat (sp_bisect_right ltb v l)))%Z then Ok (Z.to_nat m) else Err ValueError.
  Proof.
    intros H. cbv zeta. rewrite (sp_index_hit eqb). set (ws := index_start _ _). set (we := index_stop _ _).
    destruct (lrank_split v l H) as (a & t & b & E & Ha & Hat & H1 & H2 & H3).
    rewrite <- Ha, <- Hat. rewrite E. rewrite (hit_ties eqb).
    - rewrite (find_window _ ws we).
      + cbv zeta. rewrite app_length. destruct (_ && _); reflexivity.
      + intros i Hi. unfold hit. rewrite nth_error_app2, nth_error_app1 by lia.
        destruct (nth_error t (i - length a)) as [x|] eqn:Ex.
        * apply nth_error_In in Ex. rewrite (H2 x Ex), andb_true_r. reflexivity.
        * apply nth_error_None in Ex. lia.
    - intros x Hx. apply lltb_not_eq, H1, Hx.
    - intros x Hx. apply lgtb_not_eq, H3, Hx.
  Qed.

  Lemma sl_index_ok v start stop (c : SL) : LShape c -> sorted ltb (contents c) ->
    exists c', sl_index lt eq v start stop c = (sp_index eqb v start stop (contents c), c') /\ touch c c'.
  Proof.
    intros H Hs. unfold sl_index. rewrite bind_get. pose proof (lshape_core c H) as HC.
    assert (Hrefl : touch c c) by (apply touch_refl; exact HC).
    rewrite (sp_index_ranks v start stop (contents c) Hs). cbv zeta. rewrite <- (co_len _ HC).
    destruct (count_ranks v (contents c) Hs) as [Hr _]. rewrite <- (co_len _ HC) in Hr.
    destruct (Nat.eqb_spec (len c) 0) as [Hz|Hnz].
    { exists c. split; [|exact Hrefl].
      destruct (Z.ltb_spec (Z.max (index_start start (Z.of_nat (len c))) (Z.of_nat (sp_bisect_left ltb v (contents c))))
                  (Z.of_nat (sp_bisect_right ltb v (contents c)))); [lia|].
      rewrite andb_false_r. reflexivity. }
    set (ws := index_start start _). set (we := index_stop stop _).
    set (L := sp_bisect_left ltb v (contents c)) in *. set (R := sp_bisect_right ltb v (contents c)) in *.
    destruct (Z.leb_spec we ws) as [Hw|Hw].
    { exists c. split; [|exact Hrefl]. destruct (Z.ltb_spec (Z.max ws (Z.of_nat L)) we); [lia|]. reflexivity. }
    destruct (lfind v c H Hs) as (pos & Hp & [[-> Hn]|(Hlt & l & idx & x & G1 & G2 & G3 & HL & Hc)]).
    - rewrite (bind_lift _ _ _ _ Hp), Nat.eqb_refl. exists c. split; [|exact Hrefl].
      pose proof (sp_count_none eqb v (contents c) Hn) as Hz.
      rewrite (proj2 (count_ranks v (contents c) Hs)) in Hz. fold L R in Hz.
      destruct (Z.ltb_spec (Z.max ws (Z.of_nat L)) (Z.of_nat R)); [lia|]. rewrite andb_false_r. reflexivity.
    - rewrite (bind_lift _ _ _ _ Hp). destruct (Nat.eqb_spec pos (length (maxes c))); [lia|].
      rewrite (bind_lift _ _ _ _ G1), (bind_lift _ _ _ _ G2), (bind_lift _ _ _ _ G3).
      assert (Ge : eq x v = Ok (eqb x v)) by reflexivity. rewrite (bind_lift _ _ _ _ Ge).
      destruct Hc as [[Ex Hn]|(Ex & a & b & E & Ha & Hn)]; rewrite Ex; cbn [negb].
      { exists c. split; [|exact Hrefl]. pose proof (sp_count_none eqb v (contents c) Hn) as Hz.
        rewrite (proj2 (count_ranks v (contents c) Hs)) in Hz. fold L R in Hz.
        destruct (Z.ltb_spec (Z.max ws (Z.of_nat L)) (Z.of_nat R)); [lia|]. rewrite andb_false_r. reflexivity. }
      assert (HLR : L < R).
      { assert (Hp1 : 1 <= sp_count eqb v (contents c)).
        { rewrite E. rewrite sp_count_app. unfold sp_count at 2. cbn [filter]. rewrite Ex. cbn. lia. }
        rewrite (proj2 (count_ranks v (contents c) Hs)) in Hp1. fold L R in Hp1. lia. }
      destruct (loc_ok c pos idx _ HC (locate_bnd _ _ _ _ HL)) as (c1 & Hl & T). fold L in Hl.
      rewrite (bind_ok _ _ _ _ _ Hl).
      destruct (Z.leb_spec ws (Z.of_nat L)) as [Hws|Hws].
      + rewrite Z.max_r by lia. exists c1. split; [|exact T].
        destruct (Z.ltb_spec (Z.of_nat L) (Z.of_nat R)); [|lia]. rewrite andb_true_r.
        destruct (Z.leb_spec (Z.of_nat L) (we - 1)); destruct (Z.ltb_spec (Z.of_nat L) we); try lia; [|reflexivity].
        rewrite Nat2Z.id. reflexivity.
      + rewrite Z.max_l by lia.
        destruct (sl_bisect_right_ok ltb HO v c1 (lshape_touch _ _ H T)) as (c2 & Hb & T2).
        { rewrite (touch_contents _ _ T). exact Hs. }
        rewrite (touch_contents _ _ T) in Hb. fold R in Hb. rewrite (bind_ok _ _ _ _ _ Hb).
        exists c2. split; [|eapply touch_trans; eauto].
        destruct (Z.ltb_spec ws we); [|lia]. cbn [andb].
        destruct (Z.leb_spec ws (Z.of_nat R - 1)); destruct (Z.ltb_spec ws (Z.of_nat R)); try lia; reflexivity.
  Qed.
End ListTotalEq.

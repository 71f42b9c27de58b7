(** * Inherited positional operations, generic in the class (proofs) *)
From Verif Require Import PyBase BaseFacts Spec SpecFacts SliceFacts Model IndexFacts CoreFacts.
From Coq Require Import Sorting.Sorted.
Local Unset Implicit Arguments.

Lemma rangez_desc start stop step : (step < 0)%Z ->
  StronglySorted (fun i j => j < i)%Z (rangez start stop step).
Proof.
  intros H. unfold rangez. generalize (range_len start stop step) as n. intros n.
  assert (G : forall m k, StronglySorted (fun i j => j < i)%Z
                (map (fun i => (start + Z.of_nat i * step)%Z) (seq k m))).
  { induction m as [|m IH]; intros k; [constructor|]. cbn [seq map]. constructor; [apply IH|].
    apply Forall_forall. intros x Hx. apply in_map_iff in Hx as (i & <- & Hi). apply in_seq in Hi. nia. }
  apply G.
Qed.
Lemma rangez_asc start stop step : (0 < step)%Z ->
  StronglySorted (fun i j => j < i)%Z (rev (rangez start stop step)).
Proof.
  intros H. unfold rangez. generalize (range_len start stop step) as n. intros n.
  induction n as [|n IH]; [constructor|].
  rewrite seq_S, map_app, rev_app_distr. cbn [map rev app Nat.add]. constructor; [exact IH|].
  apply Forall_forall. intros x Hx. apply in_rev in Hx. apply in_map_iff in Hx as (i & <- & Hi).
  apply in_seq in Hi. nia.
Qed.

Section Vt.
  Context {S V K : Type}.
  Variable T : vtable S V K.
  Variable Inv : S -> Prop.

  Definition vcont (s : S) : list V := contents (vt_get T s).

  (** What a class must provide for the inherited methods. *)
  Record VtOK : Prop := {
    vo_core : forall s, Inv s -> CoreOK (vt_get T s);
    vo_get_put : forall c s, vt_get T (vt_put T c s) = c;
    vo_put_get : forall s, vt_put T (vt_get T s) s = s;
    vo_put : forall c s, Inv s -> touch (vt_get T s) c -> Inv (vt_put T c s);
    vo_clear : forall s, Inv s -> exists s', vt_clear T s = (Ok tt, s') /\ Inv s' /\
                 vcont s' = [] /\ load (vt_get T s') = load (vt_get T s);
    vo_load : forall ld s, Inv s -> vcont s = [] -> 1 <= ld ->
                 Inv (vt_put T (set_load ld (vt_get T s)) s);
    vo_delete : forall s a x b p i, Inv s -> vcont s = a ++ x :: b ->
                 Locate (lists (vt_get T s)) p i (length a) ->
                 exists s', vt_delete T p i s = (Ok tt, s') /\ Inv s' /\
                   vcont s' = a ++ b /\ load (vt_get T s') = load (vt_get T s) }.

  Hypothesis HT : VtOK.

  (** A read-only core operation, run on the object. *)
  Lemma oncore_ok {A} (m : M (core V K) A) s r c' : Inv s -> m (vt_get T s) = (r, c') ->
    touch (vt_get T s) c' ->
    exists s', oncore T m s = (r, s') /\ Inv s' /\ vcont s' = vcont s /\
               lists (vt_get T s') = lists (vt_get T s) /\ load (vt_get T s') = load (vt_get T s).
  Proof.
    intros HI Hm Ht. exists (vt_put T c' s). unfold oncore, zoom. rewrite Hm.
    split; [reflexivity|]. split; [apply (vo_put HT); assumption|].
    unfold vcont. rewrite (vo_get_put HT). split; [apply touch_contents; exact Ht|].
    split; [apply touch_lists; exact Ht|apply touch_load; exact Ht].
  Qed.
  Lemma oncore_get s : oncore T get s = (Ok (vt_get T s), s).
  Proof. unfold oncore, zoom, get. rewrite (vo_put_get HT). reflexivity. Qed.

  Lemma vlen s : Inv s -> len (vt_get T s) = length (vcont s).
  Proof. intros H. apply (co_len _ (vo_core HT _ H)). Qed.

  Lemma locate_split s p i j : Locate (lists (vt_get T s)) p i j ->
    exists a x b l, vcont s = a ++ x :: b /\ length a = j /\
      getn (lists (vt_get T s)) p = Ok l /\ getn l i = Ok x.
  Proof.
    intros HL. destruct (locate_get _ _ _ _ HL) as (l & Hl & Hi & _ & Hj).
    destruct (split_at _ _ Hj) as (a & x & b & E & Ha). exists a, x, b, l.
    split; [exact E|]. split; [exact Ha|]. split; [exact Hl|].
    rewrite Hi. rewrite E. apply getn_app'. auto.
  Qed.

  (** Deleting the value at a located position. *)
  Lemma delete_located s p i j : Inv s -> Locate (lists (vt_get T s)) p i j ->
    exists s' a x b l, vt_delete T p i s = (Ok tt, s') /\ Inv s' /\
      load (vt_get T s') = load (vt_get T s) /\
      vcont s = a ++ x :: b /\ length a = j /\ vcont s' = a ++ b /\
      getn (lists (vt_get T s)) p = Ok l /\ getn l i = Ok x.
  Proof.
    intros HI HL. destruct (locate_split _ _ _ _ HL) as (a & x & b & l & E & Ha & Hl & Hx).
    rewrite <- Ha in HL.
    destruct (vo_delete HT s a x b p i HI E HL) as (s' & Hd & HI' & Hc & Hld).
    exists s', a, x, b, l. auto 10.
  Qed.

  Lemma sp_del_at (a : list V) x b i : norm (length (a ++ x :: b)) i = Z.of_nat (length a) ->
    sp_del i (a ++ x :: b) = Ok (a ++ b) /\ getz (a ++ x :: b) i = Ok x.
  Proof.
    intros H. unfold norm in H. unfold sp_del, getz.
    set (j := (if i <? 0 then _ else _)%Z) in *. rewrite H.
    destruct (Z.ltb_spec (Z.of_nat (length a)) 0); [lia|]. rewrite Nat2Z.id.
    split; [apply deln_app|apply getn_app].
  Qed.
  Lemma sp_del_err (l : list V) i : ~ (0 <= norm (length l) i < Z.of_nat (length l))%Z ->
    sp_del i l = Err IndexError.
  Proof.
    intros H. unfold norm in H. unfold sp_del. set (j := (if i <? 0 then _ else _)%Z) in *.
    destruct (Z.ltb_spec j 0); [reflexivity|]. unfold deln.
    destruct (Nat.ltb_spec (Z.to_nat j) (length l)); [lia|reflexivity].
  Qed.

  Lemma delitem_int_ok s i : Inv s ->
    (exists s' l', delitem_int T i s = (Ok tt, s') /\ sp_del i (vcont s) = Ok l' /\
       Inv s' /\ vcont s' = l' /\ load (vt_get T s') = load (vt_get T s)) \/
    (delitem_int T i s = (Err IndexError, s) /\ sp_del i (vcont s) = Err IndexError).
  Proof.
    intros HI. pose proof (vo_core HT _ HI) as HC. pose proof (vlen _ HI) as Hl.
    unfold delitem_int.
    destruct (Z_le_dec 0 (norm (len (vt_get T s)) i)) as [Hlo|Hlo];
      [destruct (Z_lt_dec (norm (len (vt_get T s)) i) (Z.of_nat (len (vt_get T s)))) as [Hhi|Hhi]|].
    - left. destruct (pos_of_ok _ i HC ltac:(lia)) as (p & k & c' & Hp & Ht & HL).
      destruct (oncore_ok _ s _ _ HI Hp Ht) as (s1 & Hs1 & HI1 & Hc1 & Hls & Hld1).
      rewrite (bind_ok _ _ _ _ _ Hs1). cbn [fst snd].
      rewrite <- Hls in HL.
      destruct (delete_located s1 _ _ _ HI1 HL) as (s' & a & x & b & l & Hd & HI' & Hld & E & Ha & E' & _).
      exists s', (a ++ b). split; [exact Hd|]. rewrite <- Hc1, E.
      split; [|split; [exact HI'|split; [exact E'|congruence]]].
      apply sp_del_at. rewrite <- E, Hc1, <- Hl. lia.
    - right. unfold oncore, bind, zoom. rewrite pos_of_err by (auto; lia).
      rewrite (vo_put_get HT). split; [reflexivity|]. apply sp_del_err. rewrite <- Hl. lia.
    - right. unfold oncore, bind, zoom. rewrite pos_of_err by (auto; lia).
      rewrite (vo_put_get HT). split; [reflexivity|]. apply sp_del_err. rewrite <- Hl. lia.
  Qed.

  Lemma del_loop idxs : StronglySorted (fun i j => j < i)%Z idxs -> forall s, Inv s ->
    Forall (fun i => 0 <= i < Z.of_nat (length (vcont s)))%Z idxs ->
    exists s', forM (delitem_int T) idxs s = (Ok tt, s') /\ Inv s' /\
      vcont s' = drop_positions idxs 0 (vcont s) /\ load (vt_get T s') = load (vt_get T s).
  Proof.
    induction 1 as [|i idxs Hss IH Hi]; intros s HI HF.
    - exists s. split; [reflexivity|]. split; [exact HI|]. split; [|reflexivity].
      symmetry. apply drop_none. reflexivity.
    - inversion HF as [|? ? Hir HF']; subst. cbn [forM].
      destruct (split_at (vcont s) (Z.to_nat i) ltac:(lia)) as (a & x & b & E & Ha).
      destruct (delitem_int_ok s i HI) as [(s1 & l' & Hd & Hsp & HI1 & Hc1 & Hld1)|[_ Hsp]].
      + rewrite E in Hsp. rewrite (proj1 (sp_del_at a x b i ltac:(unfold norm; destruct (Z.ltb_spec i 0); lia))) in Hsp.
        injection Hsp as <-. rewrite (bind_ok _ _ _ _ _ Hd).
        destruct (IH s1 HI1) as (s2 & Hf & HI2 & Hc2 & Hld2).
        * rewrite Hc1. rewrite E in Hir. rewrite app_length in *. cbn in Hir.
          rewrite Forall_forall in *. intros j Hj. specialize (Hi j Hj). specialize (HF' j Hj). lia.
        * exists s2. split; [exact Hf|]. split; [exact HI2|]. split; [|congruence].
          rewrite Hc2, Hc1, E. symmetry. apply drop_greatest; [lia|].
          rewrite Forall_forall in Hi. exact Hi.
      + rewrite E in Hsp. rewrite (proj1 (sp_del_at a x b i ltac:(unfold norm; destruct (Z.ltb_spec i 0); lia))) in Hsp.
        discriminate.
  Qed.

  Lemma pop_ok s i : Inv s ->
    (exists s' v l', pop T i s = (Ok v, s') /\ getz (vcont s) i = Ok v /\ sp_del i (vcont s) = Ok l' /\
       Inv s' /\ vcont s' = l' /\ load (vt_get T s') = load (vt_get T s)) \/
    (pop T i s = (Err IndexError, s) /\ getz (vcont s) i = Err IndexError).
  Proof.
    intros HI. pose proof (vo_core HT _ HI) as HC. pose proof (vlen _ HI) as Hl.
    unfold pop. rewrite (bind_ok _ _ _ _ _ (oncore_get s)).
    destruct (Nat.eqb_spec (len (vt_get T s)) 0) as [Hz|Hnz].
    { right. split; [reflexivity|]. apply getz_norm_err. unfold norm. rewrite <- Hl, Hz.
      destruct (Z.ltb_spec i 0); lia. }
    (* common conclusion once the position is located *)
    assert (Fin : forall s1 p k j, Inv s1 -> vcont s1 = vcont s ->
              load (vt_get T s1) = load (vt_get T s) -> lists (vt_get T s1) = lists (vt_get T s) ->
              Locate (lists (vt_get T s1)) p k j ->
              norm (length (vcont s)) i = Z.of_nat j ->
              exists l val, getn (lists (vt_get T s)) p = Ok l /\ getn l k = Ok val /\
                exists s' l', (vt_delete T p k ;;; ret val) s1 = (Ok val, s') /\
                  getz (vcont s) i = Ok val /\ sp_del i (vcont s) = Ok l' /\
                  Inv s' /\ vcont s' = l' /\ load (vt_get T s') = load (vt_get T s)).
    { intros s1 p k j HI1 Hc1 Hld1 Hls1 HL Hn.
      destruct (delete_located s1 _ _ _ HI1 HL) as (s' & a & x & b & l & Hd & HI' & Hld & E & Ha & E' & Hgl & Hgx).
      exists l, x. rewrite <- Hls1. split; [exact Hgl|]. split; [exact Hgx|].
      exists s', (a ++ b). rewrite (bind_ok _ _ _ _ _ Hd). split; [reflexivity|].
      rewrite <- Hc1, E.
      destruct (sp_del_at a x b i) as [H1 H2]; [rewrite <- E, Hc1; lia|].
      split; [exact H2|]. split; [exact H1|]. split; [exact HI'|]. split; [exact E'|congruence]. }
    assert (Hne : lists (vt_get T s) <> []).
    { intros E. rewrite Hl in Hnz. unfold vcont, contents in Hnz. rewrite E in Hnz. cbn in Hnz. lia. }
    pose proof (co_ne _ HC) as Hnes.
    destruct (exists_last Hne) as (X & ll & EL).
    assert (Hll : 0 < length ll).
    { rewrite EL, Forall_app in Hnes. destruct Hnes as [_ Hn]. inversion Hn as [|? ? Hn1 _]; subst.
      destruct ll; [congruence|cbn; lia]. }
    assert (Hlen : length (vcont s) = length (concat X) + length ll).
    { unfold vcont, contents. rewrite EL, concat_app. cbn. rewrite app_nil_r, app_length. reflexivity. }
    destruct (lists (vt_get T s)) as [|l0 L] eqn:EQ; [congruence|].
    assert (Hl0 : 0 < length l0) by (inversion Hnes as [|? ? Hn _]; subst; destruct l0; [congruence|cbn; lia]).
    assert (HL0 : forall k, k < length l0 -> Locate (lists (vt_get T s)) 0 k k).
    { intros k Hk. exists [], l0, L. rewrite EQ. cbn. auto. }
    assert (HLL : forall k, k < length ll -> Locate (lists (vt_get T s)) (length (l0 :: L) - 1) k (length (concat X) + k)).
    { intros k Hk. exists X, ll, []. rewrite EQ, EL. split; [reflexivity|].
      split; [rewrite app_length; cbn; lia|]. auto. }
    assert (Hg0 : getn (l0 :: L) 0 = Ok l0) by reflexivity.
    assert (HgL : getn (l0 :: L) (length (l0 :: L) - 1) = Ok ll).
    { rewrite EL. apply getn_app'. rewrite app_length. cbn. lia. }
    assert (Hgl : getlast (l0 :: L) = Ok ll) by (rewrite EL; apply getlast_snoc).
    destruct (Z.eqb_spec i 0) as [->|Hi0].
    { left. destruct (Fin s 0 0 0 HI eq_refl eq_refl EQ (HL0 0 Hl0)) as (l & val & G1 & G2 & s' & l' & R).
      { unfold norm. cbn. reflexivity. }
      rewrite (bind_lift _ _ _ _ G1). rewrite (bind_lift _ _ _ _ G2).
      exists s', val, l'. exact R. }
    destruct (Z.eqb_spec i (-1)) as [->|Hi1].
    { left. destruct (Fin s _ (length ll - 1) _ HI eq_refl eq_refl EQ (HLL (length ll - 1) ltac:(lia)))
        as (l & val & G1 & G2 & s' & l' & R).
      { unfold norm. change (-1 <? 0)%Z with true. cbv iota. lia. }
      cbv zeta. rewrite (bind_lift _ _ _ _ HgL).
      assert (Hs1 : subc (length ll) 1 = Ok (length ll - 1)).
      { unfold subc. destruct (Nat.leb_spec 1 (length ll)); [reflexivity|lia]. }
      rewrite (bind_lift _ _ _ _ Hs1).
      rewrite HgL in G1. injection G1 as <-. rewrite (bind_lift _ _ _ _ G2).
      exists s', val, l'. exact R. }
    rewrite (bind_lift _ _ _ _ Hg0).
    destruct ((0 <=? i) && (i <? Z.of_nat (length l0)))%Z eqn:Hfirst.
    { apply andb_true_iff in Hfirst as [H1 H2]. apply Z.leb_le in H1. apply Z.ltb_lt in H2.
      left. destruct (Fin s 0 (Z.to_nat i) _ HI eq_refl eq_refl EQ (HL0 (Z.to_nat i) ltac:(lia)))
        as (l & val & G1 & G2 & s' & l' & R).
      { unfold norm. destruct (Z.ltb_spec i 0); lia. }
      rewrite Hg0 in G1. injection G1 as <-.
      rewrite getz_nonneg by lia. rewrite (bind_lift _ _ _ _ G2).
      exists s', val, l'. exact R. }
    rewrite (bind_lift _ _ _ _ Hgl).
    destruct ((- Z.of_nat (length ll) <? i) && (i <? 0))%Z eqn:Hlast.
    { apply andb_true_iff in Hlast as [H1 H2]. apply Z.ltb_lt in H1, H2.
      left. destruct (Fin s _ (Z.to_nat (Z.of_nat (length ll) + i)) _ HI eq_refl eq_refl EQ
                        (HLL (Z.to_nat (Z.of_nat (length ll) + i)) ltac:(lia)))
        as (l & val & G1 & G2 & s' & l' & R).
      { unfold norm. destruct (Z.ltb_spec i 0); lia. }
      cbv zeta. rewrite (bind_lift _ _ _ _ HgL). rewrite HgL in G1. injection G1 as <-.
      rewrite (bind_lift _ _ _ _ G2). exists s', val, l'. exact R. }
    destruct (Z_le_dec 0 (norm (len (vt_get T s)) i)) as [Hlo|Hlo];
      [destruct (Z_lt_dec (norm (len (vt_get T s)) i) (Z.of_nat (len (vt_get T s)))) as [Hhi|Hhi]|].
    - left. destruct (pos_of_ok _ i HC ltac:(lia)) as (p & k & c' & Hp & Ht & HL).
      destruct (oncore_ok _ s _ _ HI Hp Ht) as (s1 & Hs1 & HI1 & Hc1 & Hls & Hld1).
      rewrite (bind_ok _ _ _ _ _ Hs1). cbn [fst snd].
      rewrite <- Hls in HL.
      destruct (Fin s1 p k _ HI1 Hc1 Hld1 ltac:(rewrite Hls; exact EQ) HL) as (l & val & G1 & G2 & s' & l' & R).
      { rewrite <- Hl. lia. }
      rewrite (bind_lift _ _ _ _ G1). rewrite (bind_lift _ _ _ _ G2).
      exists s', val, l'. exact R.
    - right. split; [|apply getz_norm_err; rewrite <- Hl; lia].
      unfold oncore, bind at 1, zoom. rewrite pos_of_err by (auto; lia).
      rewrite (vo_put_get HT). reflexivity.
    - right. split; [|apply getz_norm_err; rewrite <- Hl; lia].
      unfold oncore, bind at 1, zoom. rewrite pos_of_err by (auto; lia).
      rewrite (vo_put_get HT). reflexivity.
  Qed.

  (** ** Operations that rebuild through [update] *)
  Variable ltb : V -> V -> bool.
  Hypothesis HO : SWO ltb.
  Definition UpdateOK : Prop := forall it s, Inv s -> sorted ltb (vcont s) ->
    exists s', vt_update T it s = (Ok tt, s') /\ Inv s' /\
      vcont s' = sp_update ltb it (vcont s) /\ load (vt_get T s') = load (vt_get T s).
  Hypothesis HU : UpdateOK.

  Lemma refill_ok values s : Inv s -> vcont s = [] ->
    exists s', vt_update T values s = (Ok tt, s') /\ Inv s' /\
      vcont s' = sp_sort ltb values /\ load (vt_get T s') = load (vt_get T s).
  Proof.
    intros HI Hc. destruct (HU values s HI) as (s' & H1 & H2 & H3 & H4).
    - rewrite Hc. apply sorted_nil.
    - rewrite Hc in H3. exists s'. auto.
  Qed.

  Lemma delitem_slice_ok s sl : Inv s -> sorted ltb (vcont s) ->
    (exists s' l', delitem_slice T sl s = (Ok tt, s') /\ sp_del_slice sl (vcont s) = Ok l' /\
       Inv s' /\ vcont s' = l' /\ load (vt_get T s') = load (vt_get T s)) \/
    (delitem_slice T sl s = (Err ValueError, s) /\ sp_del_slice sl (vcont s) = Err ValueError).
  Proof.
    intros HI Hs. pose proof (vo_core HT _ HI) as HC. pose proof (vlen _ HI) as Hl.
    unfold delitem_slice, sp_del_slice. rewrite (bind_ok _ _ _ _ _ (oncore_get s)). rewrite <- Hl.
    destruct (slice_indices sl (len (vt_get T s))) as [[[start stop] step]|e] eqn:Es;
      [|right; apply slice_indices_Err in Es as [-> _]; split; reflexivity].
    left. rewrite (bind_lift _ _ _ _ eq_refl). cbv zeta. cbn [rbind].
    destruct (slice_indices_Ok _ _ _ _ _ Es) as (Hs0 & Hpos & Hneg).
    (* the deletion loop *)
    assert (Loop : exists s' l',
      forM (delitem_int T) (if (0 <? step)%Z then rev (rangez start stop step) else rangez start stop step) s = (Ok tt, s') /\
      Ok (drop_positions (rangez start stop step) 0 (vcont s)) = Ok l' /\
      Inv s' /\ vcont s' = l' /\ load (vt_get T s') = load (vt_get T s)).
    { assert (HB : Forall (fun i => 0 <= i < Z.of_nat (length (vcont s)))%Z (rangez start stop step)).
      { apply Forall_forall. intros i Hi. destruct (rangez_bound _ _ _ _ Hs0 Hi) as [B1 B2].
        rewrite <- Hl. destruct (Z.lt_trichotomy step 0) as [Hn|[Hn|Hn]]; [|lia|].
        - specialize (B2 Hn). specialize (Hneg Hn). lia.
        - specialize (B1 Hn). specialize (Hpos Hn). lia. }
      destruct (Z.ltb_spec 0 step) as [Hp|Hn].
      - destruct (del_loop (rev (rangez start stop step)) (rangez_asc _ _ _ Hp) s HI) as (s' & H1 & H2 & H3 & H4).
        + apply Forall_rev. exact HB.
        + eexists s', _. split; [exact H1|]. split; [reflexivity|]. split; [exact H2|].
          split; [|exact H4]. rewrite H3. apply drop_ext. intros i _. apply existsb_eqb_perm.
          intros x. symmetry. apply in_rev.
      - destruct (del_loop (rangez start stop step) (rangez_desc start stop step ltac:(lia)) s HI HB) as (s' & H1 & H2 & H3 & H4).
        eexists s', _. split; [exact H1|]. split; [reflexivity|]. auto. }
    destruct ((step =? 1) && (start <? stop))%Z eqn:E1; [|exact Loop].
    apply andb_true_iff in E1 as [Ea Eb]. apply Z.eqb_eq in Ea. apply Z.ltb_lt in Eb. subst step.
    specialize (Hpos ltac:(lia)).
    destruct ((start =? 0) && (stop =? Z.of_nat (len (vt_get T s))))%Z eqn:E2.
    { apply andb_true_iff in E2 as [Ec Ed]. apply Z.eqb_eq in Ec, Ed.
      destruct (vo_clear HT s HI) as (s' & H1 & H2 & H3 & H4).
      exists s', []. split; [exact H1|]. split; [|auto].
      f_equal. rewrite drop_range by lia. subst. cbn [Z.to_nat firstn app].
      rewrite Nat2Z.id, Hl, skipn_all. reflexivity. }
    destruct (Z.leb_spec (Z.of_nat (len (vt_get T s))) (8 * (stop - start))) as [Hbig|_]; [|exact Loop].
    destruct (getitem_slice_ok _ (mkslice None (Some start) None) HC) as (c1 & G1 & T1).
    destruct (oncore_ok _ s _ _ HI G1 T1) as (s1 & Hs1 & HI1 & Hc1 & Hls1 & Hld1).
    unfold sp_slice in Hs1. fold (vcont s) in Hs1. rewrite <- Hl in Hs1.
    rewrite slice_indices_to in Hs1 by lia. cbn [rbind] in Hs1.
    rewrite mapR_getz_rangez in Hs1 by lia. cbn [Z.to_nat] in Hs1.
    rewrite (bind_ok _ _ _ _ _ Hs1).
    assert (V1 : slicen (vcont s) 0 (Z.to_nat start) = firstn (Z.to_nat start) (vcont s)).
    { unfold slicen. cbn. rewrite Nat.sub_0_r. reflexivity. }
    rewrite V1.
    assert (More : exists s2, (if (stop <? Z.of_nat (len (vt_get T s)))%Z
                 then more <- oncore T (getitem_slice (mkslice (Some stop) None None));;
                      ret (firstn (Z.to_nat start) (vcont s) ++ more)
                 else ret (firstn (Z.to_nat start) (vcont s))) s1 =
               (Ok (firstn (Z.to_nat start) (vcont s) ++ skipn (Z.to_nat stop) (vcont s)), s2) /\
               Inv s2 /\ load (vt_get T s2) = load (vt_get T s)).
    { destruct (Z.ltb_spec stop (Z.of_nat (len (vt_get T s)))) as [Hlt|Hge].
      - destruct (getitem_slice_ok _ (mkslice (Some stop) None None) (vo_core HT _ HI1)) as (c2 & G2 & T2).
        destruct (oncore_ok _ s1 _ _ HI1 G2 T2) as (s2 & Hs2 & HI2 & Hc2 & Hls2 & Hld2).
        unfold sp_slice in Hs2. fold (vcont s1) in Hs2. rewrite Hc1, <- Hl in Hs2.
        rewrite slice_indices_from in Hs2 by lia. cbn [rbind] in Hs2.
        rewrite mapR_getz_rangez in Hs2 by lia.
        rewrite (bind_ok _ _ _ _ _ Hs2). exists s2. split; [|split; [exact HI2|congruence]].
        unfold ret. f_equal. f_equal. f_equal. unfold slicen. apply firstn_all2.
        rewrite skipn_length. lia.
      - exists s1. rewrite skipn_all2 by lia. rewrite app_nil_r. auto. }
    destruct More as (s2 & Hm & HI2 & Hld2). rewrite (bind_ok _ _ _ _ _ Hm).
    destruct (vo_clear HT s2 HI2) as (s3 & H1 & H2 & H3 & H4). rewrite (bind_ok _ _ _ _ _ H1).
    destruct (refill_ok (firstn (Z.to_nat start) (vcont s) ++ skipn (Z.to_nat stop) (vcont s)) s3 H2 H3)
      as (s4 & H5 & H6 & H7 & H8).
    rewrite H5. eexists s4, _. split; [reflexivity|]. split; [reflexivity|]. split; [exact H6|].
    split; [|congruence]. rewrite H7, drop_range by lia. apply (sp_sort_id _ HO).
    rewrite <- (firstn_skipn (Z.to_nat stop) (vcont s)) in Hs.
    rewrite <- (firstn_skipn (Z.to_nat start) (firstn (Z.to_nat stop) (vcont s))) in Hs.
    rewrite firstn_firstn in Hs. replace (Nat.min (Z.to_nat start) (Z.to_nat stop)) with (Z.to_nat start) in Hs by lia.
    apply sorted_app_inv in Hs as (S1 & S2 & S3). apply sorted_app_inv in S1 as (S1 & _ & _).
    apply sorted_app; [exact S1|exact S2|]. intros; apply S3; [apply in_or_app; auto|assumption].
  Qed.

  Lemma reset_ok ld s : Inv s -> sorted ltb (vcont s) -> 1 <= ld ->
    exists s', reset T ld s = (Ok tt, s') /\ Inv s' /\ vcont s' = vcont s /\
               load (vt_get T s') = ld.
  Proof.
    intros HI Hs Hld. unfold reset. rewrite (bind_ok _ _ _ _ _ (oncore_get s)). cbv zeta.
    destruct (vo_clear HT s HI) as (s1 & H1 & H2 & H3 & H4). rewrite (bind_ok _ _ _ _ _ H1).
    unfold bind at 1, oncore, zoom, modify.
    set (s2 := vt_put T (set_load ld (vt_get T s1)) s1).
    assert (HI2 : Inv s2) by (apply (vo_load HT); assumption).
    assert (Hc2 : vcont s2 = []) by (unfold vcont, s2; rewrite (vo_get_put HT); exact H3).
    destruct (refill_ok (contents (vt_get T s)) s2 HI2 Hc2) as (s3 & H5 & H6 & H7 & H8).
    exists s3. split; [exact H5|]. split; [exact H6|]. split.
    - rewrite H7. apply (sp_sort_id _ HO). exact Hs.
    - rewrite H8. unfold s2. rewrite (vo_get_put HT). reflexivity.
  Qed.

  Lemma imul_ok n s : Inv s ->
    exists s', imul T n s = (Ok tt, s') /\ Inv s' /\ vcont s' = sp_sort ltb (sp_mul n (vcont s)) /\
               load (vt_get T s') = load (vt_get T s).
  Proof.
    intros HI. unfold imul. rewrite (bind_ok _ _ _ _ _ (oncore_get s)). cbv zeta.
    destruct (vo_clear HT s HI) as (s1 & H1 & H2 & H3 & H4). rewrite (bind_ok _ _ _ _ _ H1).
    destruct (refill_ok (list_mul (contents (vt_get T s)) n) s1 H2 H3) as (s3 & H5 & H6 & H7 & H8).
    exists s3. split; [exact H5|]. split; [exact H6|]. split; [exact H7|congruence].
  Qed.
End Vt.

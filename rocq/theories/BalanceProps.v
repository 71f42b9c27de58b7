(** * Balance and index depth (C72, C73): lemmas *)
From Coq Require Import List Arith Lia ZArith.
From Verif Require Import PyBase BaseFacts Model Spec History Reach Shape IndexFacts CoreFacts KeyFacts ListSim ListFacts CallSpec CallFacts
  HistFacts ListProps FaultSpec FaultFacts FaultHist FaultProps KeyFaultProps BalanceSpec BalanceFacts.
Import ListNotations.
Local Unset Implicit Arguments.

(** ** Reachable states have a small index *)
Lemma lshape_level {V} (c : core V V) : LShape c -> small c -> slevel c.
Proof. intros H. now apply slevel_intro, lshape_width. Qed.

Lemma wild_small V dflt (c : core V V) : 1 <= dflt -> wild_reach dflt c -> LShape c /\ small c.
Proof.
  intros Hd (ws & Hok & Hf & ->).
  assert (H0 : LShape (sl_init (V:=V) dflt)) by (apply lshape_empty; exact Hd).
  assert (H1 : small (sl_init (V:=V) dflt)) by now left.
  revert Hf Hok H0 H1. generalize (sl_init (V:=V) dflt). unfold wild_run.
  induction ws as [|w ws IH]; intros c Hf Hok H0 H1; [now split|]. cbn [run map] in *.
  inversion Hok as [|? ? Hw Hok']; subst.
  destruct (sl_step_gen (w_lt w) (w_eq w) dflt Hd (w_op w) c H0 Hw) as (r & c1 & E & _ & Hn).
  pose proof (sl_step_small (w_lt w) (w_eq w) dflt (w_op w) c (lshape_level c H0 H1)) as Hs.
  rewrite E in Hs. change (wild_step dflt w c = (r, c1)) in E. rewrite E in *.
  specialize (IH c1). destruct (run (wild_step dflt) ws c1) as [rs c2]. cbn [fst snd] in *.
  inversion Hf; subst. apply IH; auto.
Qed.

Lemma shape_lens {V K} (kf : V -> res K) (s : skl V K) : Shape kf s ->
  length (maxes (kc s)) = length (keys s) /\ length (lists (kc s)) = length (keys s).
Proof.
  intros (rows & H0 & _). rewrite (sh_lists _ _ _ H0), (sh_keys _ _ _ H0), (sh_maxes _ _ _ H0), !map_length. now split.
Qed.
Lemma kwild_small V K (kf : V -> res K) dflt (s : skl V K) : 1 <= dflt -> kwild_reach kf dflt s -> Shape kf s /\ ksm s.
Proof.
  intros Hd (ws & Hok & Hf & ->).
  assert (H0 : Shape kf (skl_init (V:=V) (K:=K) dflt)) by (apply shape_empty; exact Hd).
  assert (H1 : ksm (skl_init (V:=V) (K:=K) dflt)) by now left.
  revert Hf Hok H0 H1. generalize (skl_init (V:=V) (K:=K) dflt). unfold kwild_run.
  induction ws as [|w ws IH]; intros c Hf Hok H0 H1; [now split|]. cbn [run map] in *.
  inversion Hok as [|? ? Hw Hok']; subst.
  destruct (skl_step_gen (kw_vlt w) (kw_eq w) (kw_klt w) (kw_keq w) kf dflt Hd (kw_op w) c H0 Hw) as (r & c1 & E & _ & Hn).
  assert (Hl : klevel c) by (destruct (shape_lens kf c H0); now apply klevel_intro).
  pose proof (skl_step_small (kw_vlt w) (kw_eq w) (kw_klt w) (kw_keq w) kf dflt (kw_op w) c Hl) as Hs.
  rewrite E in Hs. change (kwild_step kf dflt w c = (r, c1)) in E. rewrite E in *.
  specialize (IH c1). destruct (run (kwild_step kf dflt) ws c1) as [rs c2]. cbn [fst snd] in *.
  inversion Hf; subst. apply IH; auto.
Qed.

(** ** C72 *)
Lemma removelast_len {A} (l : list A) : length (removelast l) = length l - 1.
Proof.
  induction l as [|x [|y t] IH]; [reflexivity..|]. change (S (length (removelast (y :: t))) = S (S (length t)) - 1).
  rewrite IH. cbn. lia.
Qed.
Lemma removelast_concat {A} (ls : list (list A)) : length (concat (removelast ls)) <= length (concat ls).
Proof.
  induction ls as [|x [|y t] IH]; [reflexivity|cbn; lia|].
  change (length (x ++ concat (removelast (y :: t))) <= length (x ++ concat (y :: t))).
  rewrite !app_length. lia.
Qed.
Lemma shape_balanced {V K} (kf : V -> res K) (s : skl V K) : Shape kf s -> ksm s -> balanced (kc s) (length (contents (kc s))).
Proof.
  intros HS Hsm. destruct (shape_lens kf s HS) as [L1 L2]. destruct HS as (rows & H0 & _).
  pose proof (sh_lists _ _ _ H0) as El. pose proof (sh_rows _ _ _ H0) as Hr.
  assert (Hne : Forall (fun l => 1 <= length l) (lists (kc s))).
  { rewrite El. apply Forall_map. eapply Forall_impl; [|exact Hr]. intros r. apply row_ok_ne. }
  pose proof (sh_sizes _ _ _ H0) as [Z1 Z2]. rewrite <- El in Z1, Z2.
  split; [|split; [exact Z2|split; [|split; [|split]]]].
  - apply Forall_forall. intros l Hl. rewrite Forall_forall in Hne, Z1. specialize (Hne l Hl). specialize (Z1 l Hl). lia.
  - apply sum_below in Z2. rewrite removelast_len in Z2. pose proof (removelast_concat (lists (kc s))). unfold contents. lia.
  - apply sum_below in Hne. unfold contents. lia.
  - congruence.
  - destruct (sh_index _ _ _ H0) as [E|(D & HD & Hoff & Hn & H2 & Hlen & HT)]; [rewrite E; cbn; lia|].
    assert (length (lens_of rows) = length (lists (kc s))) as E by (unfold lens_of; rewrite El, !map_length; reflexivity).
    destruct Hsm as [Hs|Hs]; [rewrite Hs; cbn; lia|]. lia.
Qed.

Lemma c72_list : forall V dflt (c : core V V) l, 1 <= dflt -> wild_reach dflt c -> shows c l -> balanced c (length l).
Proof.
  intros V dflt c l Hd HR Hl. apply shows_iff in Hl. subst l. destruct (wild_small V dflt c Hd HR) as [HS Hsm].
  exact (shape_balanced ident (embed c) HS Hsm).
Qed.
Lemma c72_keylist : forall V K (kf : V -> res K) dflt s l, 1 <= dflt -> kwild_reach kf dflt s -> kshows s l ->
  balanced (kc s) (length l) /\ map (@length K) (keys s) = map (@length V) (lists (kc s)).
Proof.
  intros V K kf dflt s l Hd HR Hl. apply shows_iff in Hl. subst l. destruct (kwild_small V K kf dflt s Hd HR) as [HS Hsm].
  split; [exact (shape_balanced kf s HS Hsm)|]. destruct HS as (rows & H0 & _).
  rewrite (sh_lists _ _ _ H0), (sh_keys _ _ _ H0), !map_map. apply map_ext_in. intros r Hr.
  pose proof (sh_rows _ _ _ H0) as Hf. rewrite Forall_forall in Hf. now apply (row_ok_len kf), Hf.
Qed.

(** ** C73 *)
Lemma pos_loop_same n m ix : forall p q i r r', pos_loop n ix p q i = Ok r -> pos_loop m ix p q i = Ok r' -> r = r'.
Proof.
  revert m. induction n as [|n IH]; intros m p q i r r'; [discriminate|]. destruct m as [|m]; [discriminate|].
  cbn [pos_loop]. destruct (q <? length ix); [|congruence]. destruct (getn ix q); cbn [rbind]; [|discriminate].
  destruct (i <? _); apply IH.
Qed.
Lemma loc_loop_same n m ix : forall p t r r', loc_loop n ix p t = Ok r -> loc_loop m ix p t = Ok r' -> r = r'.
Proof.
  revert m. induction n as [|n IH]; intros m p t r r'; [discriminate|]. destruct m as [|m]; [discriminate|].
  cbn [loc_loop]. destruct (p =? 0); [congruence|].
  destruct (if Nat.even p then _ else _); cbn [rbind]; [|discriminate]. apply IH.
Qed.
Lemma walk_up_within f : forall n m c ix, c + 1 < 2 ^ n -> c + 1 < 2 ^ m -> walk_up f n c ix = walk_up f m c ix.
Proof.
  induction n as [|n IH]; intros m c ix Hn Hm; [cbn in Hn; lia|]. destruct m as [|m]; [cbn in Hm; lia|].
  cbn [walk_up]. destruct (c =? 0) eqn:E; [reflexivity|]. apply Nat.eqb_neq in E.
  destruct (updn ix c f); cbn [rbind]; [|reflexivity]. apply IH; rewrite Nat.pow_succ_r' in *.
  - pose proof (Nat.div_mod (c - 1) 2 ltac:(lia)). lia.
  - pose proof (Nat.div_mod (c - 1) 2 ltac:(lia)). lia.
Qed.

Lemma shape_steps {V K} (c : core V K) : CoreOK c -> small c -> length (maxes c) = length (lists c) -> 2 <= length (lists c) ->
  index_steps c (length (contents c)) (Nat.log2 (length (lists c)) + 1).
Proof.
  intros HC Hsm Hm H2. unfold index_steps.
  pose proof (ensure_small (length (lists c)) c (conj Hm (conj eq_refl Hsm))) as Hs'.
  destruct (ensure_index_ok c HC H2) as (c' & He & Ht & HI). rewrite He in *. cbn [snd] in *. cbv zeta.
  destruct Hs' as (_ & Hl' & Hs').
  assert (El : lists c' = lists c) by (destruct Ht as (ix & off & -> & _); reflexivity).
  split; [exact El|].
  destruct HI as (D & HD & Hoff & Hn & _ & Hlen & HT).
  assert (Hlens : length (clens c) = length (lists c)) by (unfold clens; apply map_length).
  assert (Hk : D <= Nat.log2 (length (lists c)) + 1).
  { destruct Hs' as [Hs'|Hs']; [rewrite Hs' in Hlen; cbn in Hlen; lia|]. rewrite Hl' in Hs'.
    assert (2 ^ D <= 2 * length (lists c)) by lia.
    rewrite Nat.add_1_r, <- Nat.log2_double by lia. rewrite <- (Nat.log2_pow2 D) by lia. now apply Nat.log2_le_mono. }
  pose proof (pow2_gt D) as HDg.
  split; [|split].
  - intros j Hj.
    assert (Hroot : j < nd (index c') (2 ^ 0 - 1 + 0)).
    { assert (Hns := node_sum D _ _ HT D 0 0 ltac:(lia) ltac:(cbn; lia)).
      rewrite Nat.mul_0_l, psum_0, Nat.add_0_r in Hns.
      replace ((0 + 1) * 2 ^ D) with (2 ^ D) in Hns by lia. rewrite Hns.
      rewrite psum_all by exact Hn. rewrite total_sum. exact Hj. }
    rewrite Hoff in Hlen.
    destruct (pos_loop_ok D _ _ HT Hn Hlen D (S (Nat.log2 (length (lists c)) + 1)) 0 0 j ltac:(lia) ltac:(cbn; lia) ltac:(lia) Hroot) as (i & r & E & _).
    destruct (pos_loop_ok D _ _ HT Hn Hlen D (S (length (index c'))) 0 0 j ltac:(lia) ltac:(cbn; lia) ltac:(lia) Hroot) as (i' & r' & E' & _).
    cbn [Nat.pow Nat.sub Nat.add Nat.mul] in E, E'. eexists. split; [exact E|]. rewrite (pos_loop_same _ _ _ _ _ _ _ _ E E'). exact E'.
  - intros p Hp. rewrite Hoff in *. rewrite (Nat.add_comm p).
    assert (E : forall fuel, D < fuel -> loc_loop fuel (index c') (2 ^ D - 1 + p) 0 = Ok (0 + psum (clens c) (p * 2 ^ 0))).
    { intros fuel Hf. apply (loc_loop_ok D (index c') (clens c) HT D 0 fuel p 0); lia. }
    eexists. split; apply E; lia.
  - intros p Hp f. apply walk_up_within; rewrite Hoff.
    + apply Nat.lt_le_trans with (2 ^ S D); [rewrite Nat.pow_succ_r'; lia|]. apply Nat.pow_le_mono_r; lia.
    + pose proof (pow2_gt (S (2 ^ D - 1 + p))). cbn [Nat.pow] in *. pose proof (pow2_gt (2 ^ D - 1 + p)). lia.
Qed.
Lemma c73_list : forall V dflt (c : core V V) l, 1 <= dflt -> wild_reach dflt c -> shows c l -> 2 <= length (lists c) ->
  index_steps c (length l) (Nat.log2 (length (lists c)) + 1).
Proof.
  intros V dflt c l Hd HR Hl H2. apply shows_iff in Hl. subst l. destruct (wild_small V dflt c Hd HR) as [HS Hsm].
  apply shape_steps; auto. - apply lshape_core, HS. - apply lshape_width, HS.
Qed.
Lemma c73_keylist : forall V K (kf : V -> res K) dflt s l, 1 <= dflt -> kwild_reach kf dflt s -> kshows s l -> 2 <= length (lists (kc s)) ->
  index_steps (kc s) (length l) (Nat.log2 (length (lists (kc s))) + 1).
Proof.
  intros V K kf dflt s l Hd HR Hl H2. apply shows_iff in Hl. subst l. destruct (kwild_small V K kf dflt s Hd HR) as [HS Hsm].
  apply shape_steps; auto. - eapply shape_core, HS. - destruct (shape_lens kf s HS). congruence.
Qed.

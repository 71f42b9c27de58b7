(** * The positional index with another logarithm (C66) *)
From Verif Require Import PyBase Model Spec History Reach BaseFacts SpecFacts IndexFacts Shape ListSim HistFacts KeyProps LogSpec.
Local Unset Implicit Arguments.

Lemma build_log_ok {V K} (lg : nat -> nat) (c : core V K) :
  log_enough lg -> 2 <= length (lists c) -> index c = [] ->
  exists ix off, build_index_log lg c = (Ok tt, set_offset off (set_index ix c))
                 /\ IndexFor (map (@length V) (lists c)) ix off.
Proof.
  intros HL H2 Hix. unfold build_index_log, modifyR.
  set (row0 := map (@length V) (lists c)).
  assert (Hl0 : length row0 = length (lists c)) by (subst row0; apply map_length).
  clearbody row0.
  destruct (Nat.eqb_spec (length row0) 1) as [H|_]; [lia|].
  destruct (row1_ok row0 ltac:(lia)) as (row1 & Hr1 & Hl1 & Hn1).
  rewrite Hr1. cbn [rbind].
  pose proof (Nat.div_mod (length row0 + 1) 2 ltac:(lia)) as Hdm.
  pose proof (Nat.mod_upper_bound (length row0 + 1) 2 ltac:(lia)) as Hmb.
  destruct (Nat.eqb_spec (length row1) 1) as [H1|H1].
  - eexists _, _. split; [reflexivity|].
    assert (Hl2 : length row0 = 2) by lia.
    destruct row1 as [|x [|? ?]]; cbn in H1; try lia.
    assert (Hx := Hn1 0). cbn [nth] in Hx.
    destruct row0 as [|a [|b [|? ?]]]; cbn in Hl2; try lia.
    cbn in Hx. exists 1. cbn. repeat split; try lia.
    + intros [|p] Hp; [cbn; lia|cbn in Hp; lia].
  - destruct (Nat.eqb_spec (length row1) 0) as [H0|H0]; [lia|].
    assert (Hsz : length row1 <= 2 ^ (lg (length row1 - 1) + 1)).
    { pose proof (HL (length row1 - 1) ltac:(lia)). lia. }
    destruct (build_index_sized_ok _ row0 row1 ltac:(lia) Hl1 Hn1 Hsz) as (ix & Hb & HI).
    rewrite Hb. cbn [rbind fst snd]. rewrite Hix. cbn [app].
    eexists _, _. split; [reflexivity|exact HI].
Qed.

Lemma shape_index {V K} (kf : V -> res K) (s : skl V K) ix off : Shape kf s ->
  IndexFor (map (@length V) (lists (kc s))) ix off -> Shape kf (set_kc (set_offset off (set_index ix (kc s))) s).
Proof.
  intros (rows & H & Hl) HI. exists rows. split; [|exact Hl]. destruct H. constructor; auto.
  right. cbn. rewrite sh_lists in HI. unfold lens_of. rewrite map_map in HI. exact HI.
Qed.

Lemma c66_same_log : forall V K (c : core V K), build_index_log Nat.log2 c = build_index c.
Proof. reflexivity. Qed.

Lemma c66_list : forall V (ltb eqb : V -> V -> bool) dflt c,
  TotalOrder ltb eqb -> 1 <= dflt -> log_reach ltb eqb dflt c ->
  exists l, shows c l /\ sorted ltb l /\
    forall ops, Forall lop_ok ops -> exists c',
      sl_run (total2 ltb) (total2 eqb) dflt ops c = (fst (sp_run ltb eqb ltb ops l), c') /\
      shows c' (snd (sp_run ltb eqb ltb ops l)).
Proof.
  intros V ltb eqb dflt c HT Hd HR.
  assert (HL : LInv ltb c).
  { induction HR as [|o c HR IH Ho|lg c HR IH Hlg Hix H2].
    - apply sl_init_inv. exact Hd.
    - destruct (sl_run_ok ltb eqb HT dflt Hd [o] c IH ltac:(auto)) as (c' & E & HI & _).
      unfold sl_run in E. cbn [run] in E. destruct (sl_step (total2 ltb) (total2 eqb) dflt o c) as [r c1] eqn:E1.
      apply (f_equal snd) in E. cbn in E. subst c1. exact HI.
    - destruct (build_log_ok lg c Hlg H2 Hix) as (ix & off & E & HI). rewrite E. cbn [snd].
      destruct IH as [IH1 IH2]. split; [|exact IH2]. apply (shape_index _ (embed c) ix off IH1 HI). }
  exists (contents c). split; [reflexivity|]. split; [apply HL|]. intros ops Hok.
  destruct (sl_run_ok ltb eqb HT dflt Hd ops c HL Hok) as (c' & E & _ & Ec & _).
  exists c'. split; [exact E|]. unfold shows. rewrite <- Ec. reflexivity.
Qed.

Lemma c66_keylist : forall V K (key : V -> K) (kltb keqb : K -> K -> bool) (vltb eqb : V -> V -> bool) dflt s,
  TotalOrder kltb keqb -> EqCompat (by_key key kltb) eqb -> 1 <= dflt ->
  log_kreach key kltb keqb vltb eqb dflt s ->
  exists l, kshows s l /\ sorted (by_key key kltb) l /\
    forall ops, Forall kop_ok ops -> Forall (comparable vltb eqb) ops -> exists s',
      skl_run (total2 vltb) (total2 eqb) (total2 kltb) (total2 keqb) (total1 key) dflt ops s
        = (fst (sp_krun eqb vltb key kltb ops l), s') /\
      kshows s' (snd (sp_krun eqb vltb key kltb ops l)).
Proof.
  intros V K key kltb keqb vltb eqb dflt s HT HE Hd HR.
  assert (HL : KInv key kltb s).
  { induction HR as [|o s HR IH Ho|lg s HR IH Hlg Hix H2].
    - apply skl_init_inv. exact Hd.
    - destruct (kstep_any key kltb keqb vltb eqb dflt HT HE Hd o s IH Ho) as (r & s' & E & HI & _).
      unfold skl_do in E. rewrite E. exact HI.
    - destruct (build_log_ok lg (kc s) Hlg H2 Hix) as (ix & off & E & HI). rewrite E. cbn [snd].
      destruct IH as [IH1 IH2]. split; [|exact IH2]. apply (shape_index _ s ix off IH1 HI). }
  exists (contents (kc s)). split; [reflexivity|]. split; [apply HL|]. intros ops Hok Hc.
  destruct (skl_run_ok key kltb keqb vltb eqb HT HE dflt Hd ops s HL Hok) as (s' & E & _ & Ec & _).
  { eapply Forall_impl; [|exact Hc]. apply comparable_ok. }
  exists s'. split; [exact E|]. apply kshows_iff. exact Ec.
Qed.

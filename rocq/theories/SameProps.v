(** * A key function against values that compare by that key *)
From Verif Require Import PyBase Model Spec History Reach ListClass ClassSpec ClassFacts ListProps SpecFacts KeyProps ModelSet ModelDict DictSpec DictProps SameSpec.
Local Unset Implicit Arguments.

Section Same.
  Context {V K : Type}.
  Variable key : V -> K.
  Variables kltb keqb : K -> K -> bool.
  Variable eqb : V -> V -> bool.
  Hypothesis HT : TotalOrder kltb keqb.
  Hypothesis HE : forall x y, eqb x y = keqb (key x) (key y).
  Notation ltb := (by_key key kltb).

  Lemma keyed_order : TotalOrder ltb eqb.
  Proof.
    constructor; [apply by_key_swo, (to_swo HT)|]. intros x y. rewrite HE. apply (to_eq HT).
  Qed.
  Lemma keyed_compat : EqCompat ltb eqb.
  Proof.
    intros x y H. rewrite (to_eq keyed_order) in H. apply andb_true_iff in H as [H1 H2].
    apply negb_true_iff in H1, H2. split; assumption.
  Qed.
  Lemma krun_list ops l : sp_krun eqb ltb key kltb (map KList ops) l = sp_run ltb eqb ltb ops l.
  Proof.
    revert l. induction ops as [|o ops IH]; intros l; [reflexivity|].
    unfold sp_krun, sp_run in *. cbn [map run sp_kstep]. destruct (sp_step ltb eqb ltb o l) as [r l1]. rewrite IH. reflexivity.
  Qed.
  Lemma refs_agree {B} (veqb : B -> B -> bool) (o : dop V B K) d : keyless_op o ->
    ref_step ltb eqb veqb (fwd_plain ltb eqb) o d = ref_step ltb eqb veqb (fwd_keyed key kltb eqb) o d.
  Proof. destruct o; try reflexivity. destruct f; try reflexivity; intros []. Qed.
  Lemma ref_runs_agree {B} (veqb : B -> B -> bool) (ops : list (dop V B K)) : Forall keyless_op ops -> forall d,
    ref_run ltb eqb veqb (fwd_plain ltb eqb) ops d = ref_run ltb eqb veqb (fwd_keyed key kltb eqb) ops d.
  Proof.
    intros H. induction H as [|o ops Ho H IH]; intros d; [reflexivity|]. unfold ref_run in *. cbn [run].
    rewrite (refs_agree veqb o d Ho). destruct (ref_step _ _ _ _ o d) as [r d1]. rewrite IH. reflexivity.
  Qed.
End Same.

Lemma c76_list : forall V K (key : V -> K) (kltb keqb : K -> K -> bool) (eqb : V -> V -> bool) dflt ops,
  TotalOrder kltb keqb -> (forall x y, eqb x y = keqb (key x) (key y)) -> 1 <= dflt -> Forall lop_ok ops ->
  let lt := total2 (fun x y => kltb (key x) (key y)) in
  exists rs c s l,
    sl_run lt (total2 eqb) dflt ops (sl_init dflt) = (rs, c) /\
    skl_run lt (total2 eqb) (total2 kltb) (total2 keqb) (total1 key) dflt (map KList ops) (skl_init dflt) = (rs, s) /\
    shows c l /\ kshows s l.
Proof.
  intros V K key kltb keqb eqb dflt ops HT HE Hd Ho. cbv zeta. change (fun x y => kltb (key x) (key y)) with (by_key key kltb).
  pose proof (keyed_order key kltb keqb eqb HT HE) as HO.
  destruct (c02_refines V (by_key key kltb) eqb dflt ops HO Hd Ho) as (c & Ec & Hc).
  destruct (c27_refines V K key kltb keqb (by_key key kltb) eqb dflt (map KList ops) HT (keyed_compat key kltb keqb eqb HT HE) Hd) as (s & Es & Hs).
  { apply Forall_map. exact Ho. }
  { apply Forall_map. apply Forall_forall. intros o _. destruct o as [| | | | | | | | | | | | | | | | | | | | | | | | | | |[]|]; try exact I; exact HO. }
  rewrite krun_list in Es, Hs. eexists _, c, s, _. split; [exact Ec|]. split; [exact Es|]. split; [exact Hc|exact Hs].
Qed.

Lemma c76_dict : forall A B K (key : A -> K) (kltb keqb : K -> K -> bool) (eqb : A -> A -> bool) (veqb : B -> B -> bool) dflt a ops,
  TotalOrder kltb keqb -> (forall x y, eqb x y = keqb (key x) (key y)) -> 1 <= dflt ->
  Forall (dop_ok eqb) ops -> Forall keyless_op ops ->
  let T1 := plain (K:=K) (total2 (fun x y => kltb (key x) (key y))) (total2 eqb) dflt in
  let T2 := keyed (total2 eqb) (total2 kltb) (total2 keqb) (total1 key) dflt in
  exists s1 s2 rs s1' s2' l, sd_new T1 eqb a = Ok s1 /\ sd_new T2 eqb a = Ok s2 /\
    sd_run T1 eqb veqb ops s1 = (rs, s1') /\ sd_run T2 eqb veqb ops s2 = (rs, s2') /\
    sd_shows T1 eqb s1' l /\ sd_shows T2 eqb s2' l.
Proof.
  intros A B K key kltb keqb eqb veqb dflt a ops HT HE Hd Ho Hk. cbv zeta. change (fun x y => kltb (key x) (key y)) with (by_key key kltb).
  pose proof (keyed_order key kltb keqb eqb HT HE) as HO.
  destruct (c44_history _ A B K _ _ _ veqb _ dflt a ops (class_plain HO Hd) Ho) as (s1 & s1' & E1 & _ & R1 & S1).
  destruct (c44_history _ A B K _ _ _ veqb _ dflt a ops
    (class_keyed (key:=key) HT (to_equiv _ _ HO) (keyed_compat key kltb keqb eqb HT HE) Hd) Ho) as (s2 & s2' & E2 & _ & R2 & S2).
  rewrite <- (ref_runs_agree key kltb eqb veqb ops Hk) in R2, S2.
  eexists s1, s2, _, s1', s2', _. split; [exact E1|]. split; [exact E2|]. split; [exact R1|]. split; [exact R2|].
  split; [exact S1|exact S2].
Qed.

(** * Calls that answer as functions do: statements *)
From Verif Require Import PyBase Model Spec History BaseFacts Shape CoreFacts VtFacts KeyFacts ListSim FaultFacts FaultSpec FaultHist
  ModelEffect EffectSpec EffectSameSpec EffectSame EffectProps.
Local Unset Implicit Arguments.

Lemma by_insertion_told W : sorts_told (@by_insertion W).
Proof.
  intros A f g H l w. unfold by_insertion, py_sorted. generalize (@nil A) as acc. revert w. induction l as [|x l IH]; intros w acc; [reflexivity|].
  cbn [e_acc sort_acc].
  assert (HI : forall acc (w : W), fst (e_ins f x acc w) = sort_ins g x acc).
  { clear IH w acc. induction acc as [|y t IHt]; intros w; [reflexivity|]. cbn [e_ins sort_ins]. apply told_bind; [apply H|].
    intros [] w1 _; [reflexivity|]. apply told_bind; [apply IHt|]. reflexivity. }
  apply told_bind; [apply HI|]. intros acc' w1 _. apply IH.
Qed.

Lemma c127_list : forall (W V : Type) (srt : sorting W) (lt' eq' : V -> V -> M W bool) (lt eq : V -> V -> res bool) (dflt : nat) (ops : list (lop V)) (w : W),
  sorts_told srt -> answers2 lt' lt -> answers2 eq' eq -> 1 <= dflt -> Forall lop_ok ops ->
  Forall2 update_fine ops (fst (sl_run lt eq dflt ops (sl_init dflt))) ->
  exists w', run (e_step srt lt' eq' dflt) ops (w, sl_init dflt) =
    (fst (sl_run lt eq dflt ops (sl_init dflt)), (w', snd (sl_run lt eq dflt ops (sl_init dflt)))).
Proof.
  intros W V srt lt' eq' lt eq dflt ops w Hs H1 H2 Hd. assert (H0 : LShape (sl_init dflt : core V V)) by (apply lshape_empty; exact Hd).
  revert w H0. generalize (sl_init dflt : core V V) as c. unfold sl_run. induction ops as [|o ops IH]; intros c w HS Hok Hf; [exists w; reflexivity|].
  inversion Hok as [|? ? Ho Hos]; subst. cbn [run] in *.
  destruct (free_step srt lt eq lt' eq' H1 H2 dflt Hs o w c HS Ho) as [w1 E]. rewrite E.
  destruct (sl_step_gen lt eq dflt Hd o c HS Ho) as (r & c' & E2 & _ & H3). rewrite E2 in *. cbn [fst snd].
  destruct (run (sl_step lt eq dflt) ops c') as [rs c2] eqn:E3. cbn [fst snd] in *. inversion Hf as [|? ? ? ? F1 F2]; subst.
  specialize (IH c' w1 (H3 F1) Hos). rewrite E3 in IH. destruct (IH F2) as [w2 E4]. rewrite E4. exists w2. reflexivity.
Qed.
Lemma c127_keylist : forall (W V K : Type) (srt : sorting W) (vlt' eq' : V -> V -> M W bool) (klt' keq' : K -> K -> M W bool) (kf' : V -> M W K)
  (vlt eq : V -> V -> res bool) (klt keq : K -> K -> res bool) (kf : V -> res K) (dflt : nat) (ops : list (kop V K)) (w : W),
  sorts_told srt -> answers2 vlt' vlt -> answers2 eq' eq -> answers2 klt' klt -> answers2 keq' keq -> answers1 kf' kf -> 1 <= dflt -> Forall kop_ok ops ->
  Forall2 kupdate_fine ops (fst (skl_run vlt eq klt keq kf dflt ops (skl_init dflt))) ->
  exists w', run (ek_step srt vlt' eq' klt' keq' kf' dflt) ops (w, skl_init dflt) =
    (fst (skl_run vlt eq klt keq kf dflt ops (skl_init dflt)), (w', snd (skl_run vlt eq klt keq kf dflt ops (skl_init dflt)))).
Proof.
  intros W V K srt vlt' eq' klt' keq' kf' vlt eq klt keq kf dflt ops w Hs H1 H2 H3 H4 H5 Hd.
  assert (H0 : Shape kf (skl_init dflt : skl V K)) by (apply shape_empty; exact Hd).
  revert w H0. generalize (skl_init dflt : skl V K) as c. unfold skl_run. induction ops as [|o ops IH]; intros c w HS Hok Hf; [exists w; reflexivity|].
  inversion Hok as [|? ? Ho Hos]; subst. cbn [run] in *.
  destruct (free_kstep srt vlt eq klt keq kf vlt' eq' klt' keq' kf' H1 H2 H3 H4 H5 dflt Hs Hd o w c HS Ho) as [w1 E]. rewrite E.
  destruct (skl_step_gen vlt eq klt keq kf dflt Hd o c HS Ho) as (r & c' & E2 & _ & H6). rewrite E2 in *. cbn [fst snd].
  destruct (run (skl_step vlt eq klt keq kf dflt) ops c') as [rs c2] eqn:E3. cbn [fst snd] in *. inversion Hf as [|? ? ? ? F1 F2]; subst.
  specialize (IH c' w1 (H6 F1) Hos). rewrite E3 in IH. destruct (IH F2) as [w2 E4]. rewrite E4. exists w2. reflexivity.
Qed.

(** A comparison that writes down its arguments, a key function that counts its calls. *)
Definition written (f : nat -> nat -> bool) (x y : nat) : M (list (nat * nat)) bool := fun w => (Ok (f x y), w ++ [(x, y)]).
Definition counted {B} (f : nat -> B) (x : nat) : M nat B := fun n => (Ok (f x), S n).
Definition counted2 (f : nat -> nat -> bool) (x y : nat) : M nat bool := fun n => (Ok (f x y), S n).

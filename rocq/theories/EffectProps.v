(** * Effects of [<], [==] and the key function: statements *)
From Verif Require Import PyBase Model Spec History BaseFacts Shape CoreFacts VtFacts KeyFacts ListSim HeapFacts HeapSim FaultFacts FaultSpec FaultHist
  ModelEffect EffectSpec EffectFacts EffectHist EffectPure.
From Coq Require Import Sorting.Permutation Setoid Morphisms.
Local Unset Implicit Arguments.

(** Insertion sort, calling [lt] as [sorted] of PyBase.v does. *)
Section Insertion.
  Context {W A : Type}.
  Variable lt : A -> A -> M W bool.
  Fixpoint e_ins (x : A) (l : list A) : M W (list A) :=
    match l with
    | [] => ret [x]
    | y :: t => b <- lt x y ;; if b : bool then ret (x :: y :: t) else t' <- e_ins x t ;; ret (y :: t')
    end.
  Fixpoint e_acc (acc l : list A) : M W (list A) :=
    match l with
    | [] => ret acc
    | x :: t => acc' <- e_ins x acc ;; e_acc acc' t
    end.
  Lemma e_ins_ok x l w : match fst (e_ins x l w) with Ok l' => Permutation l' (x :: l) | Err e => exists x y, may_raise (lt x y) e end.
  Proof.
    revert w. induction l as [|y l IH]; intros w; [apply Permutation_refl|]. cbn [e_ins]. unfold bind. destruct (lt x y w) as [[[]|e] w1] eqn:E.
    - apply Permutation_refl.
    - specialize (IH w1). destruct (e_ins x l w1) as [[t|e] w2]; cbn in *; [eapply Permutation_trans; [apply perm_skip; exact IH|apply perm_swap]|exact IH].
    - exists x, y, w, w1. exact E.
  Qed.
  Lemma e_acc_ok l : forall acc w, match fst (e_acc acc l w) with Ok l' => Permutation l' (acc ++ l) | Err e => exists x y, may_raise (lt x y) e end.
  Proof.
    induction l as [|x l IH]; intros acc w; cbn [e_acc]; [rewrite app_nil_r; apply Permutation_refl|]. unfold bind. pose proof (e_ins_ok x acc w) as H.
    destruct (e_ins x acc w) as [[acc'|e] w1]; cbn [fst] in *; [|exact H]. specialize (IH acc' w1).
    destruct (e_acc acc' l w1) as [[l'|e] w2]; cbn [fst] in *; [|exact IH]. rewrite IH, H. apply Permutation_middle.
  Qed.
End Insertion.
Definition by_insertion {W} : sorting W := fun A lt l => e_acc lt [] l.
Lemma by_insertion_permutes W : permutes (@by_insertion W).
Proof. intros A lt l w. apply (e_acc_ok lt l []). Qed.
Lemma by_insertion_sorts W : sorts_as (@by_insertion W).
Proof.
  intros A lt l w. unfold by_insertion, py_sorted. generalize (@nil A) as acc. revert w. induction l as [|x l IH]; intros w acc; [reflexivity|].
  cbn [e_acc sort_acc].
  assert (H : forall acc (w : W), e_ins (fun x y => liftr (lt x y)) x acc w = (sort_ins lt x acc, w)).
  { clear. induction acc as [|y t IH]; intros w; [reflexivity|]. cbn [e_ins sort_ins]. unfold bind, liftr.
    destruct (lt x y) as [[]|e]; [reflexivity| |reflexivity]. cbn [rbind]. unfold liftr in IH. rewrite IH. destruct (sort_ins lt x t); reflexivity. }
  unfold bind. rewrite H. destruct (sort_ins lt x acc) as [acc'|e]; [|reflexivity]. cbn [rbind]. apply IH.
Qed.

Lemma c115_list : forall (W V : Type) (srt : sorting W) (lt eq : V -> V -> M W bool) (dflt : nat) (c : core V V) (o : lop V) (w : W),
  permutes srt -> 1 <= dflt -> e_reach srt lt eq dflt c -> lop_ok o ->
  framed c /\
  let p := e_step srt lt eq dflt o (w, c) in
  eff (fun x y => may_hold (eq x y)) (e_raises lt eq) o (concat (lists c)) (fst p) (concat (lists (snd (snd p)))) /\
  (update_fine o (fst p) -> framed (snd (snd p))).
Proof.
  intros W V srt lt eq dflt c o w Hs Hd HR Hok. pose proof (e_reach_frame srt lt eq dflt Hs Hd c HR) as HF.
  split; [exact (frame_framed _ HF)|]. destruct (e_step_went srt lt eq dflt Hs Hd o w c HF Hok) as [H1 H2]. split; [exact H1|].
  intros H. exact (frame_framed _ (H2 H)).
Qed.
Lemma c115_keylist : forall (W V K : Type) (srt : sorting W) (vlt eq : V -> V -> M W bool) (klt keq : K -> K -> M W bool) (kf : V -> M W K)
  (dflt : nat) (s : skl V K) (o : kop V K) (w : W),
  permutes srt -> 1 <= dflt -> ek_reach srt vlt eq klt keq kf dflt s -> kop_ok o ->
  framed (kc s) /\
  let p := ek_step srt vlt eq klt keq kf dflt o (w, s) in
  keff (fun x y => may_hold (eq x y)) (ek_raises vlt eq klt keq kf) o (concat (lists (kc s))) (fst p) (concat (lists (kc (snd (snd p))))) /\
  (refill_fine o (fst p) -> framed (kc (snd (snd p)))).
Proof.
  intros W V K srt vlt eq klt keq kf dflt s o w Hs Hd HR Hok. pose proof (ek_reach_frame srt vlt eq klt keq kf dflt Hs Hd s HR) as HF.
  split; [exact (frame_framed _ HF)|]. destruct (ek_step_went srt vlt eq klt keq kf dflt Hs Hd o w s HF Hok) as [H1 H2]. split; [exact H1|].
  intros H. exact (frame_framed _ (H2 H)).
Qed.

Lemma c115_effect_free : forall (W V : Type) (srt : sorting W) (lt eq : V -> V -> res bool) (dflt : nat) (ops : list (lop V)) (w : W),
  sorts_as srt -> 1 <= dflt -> Forall lop_ok ops -> Forall2 update_fine ops (fst (sl_run lt eq dflt ops (sl_init dflt))) ->
  run (e_step srt (fun x y => liftr (lt x y)) (fun x y => liftr (eq x y)) dflt) ops (w, sl_init dflt) =
  (fst (sl_run lt eq dflt ops (sl_init dflt)), (w, snd (sl_run lt eq dflt ops (sl_init dflt)))).
Proof.
  intros W V srt lt eq dflt ops w Hs Hd. assert (H0 : LShape (sl_init dflt : core V V)) by (apply lshape_empty; exact Hd).
  revert H0. generalize (sl_init dflt : core V V) as c. unfold sl_run. induction ops as [|o ops IH]; intros c HS Hok Hf; [reflexivity|].
  inversion Hok as [|? ? Ho Hos]; subst. cbn [run] in *.
  pose proof (free_step srt lt eq dflt Hs o w c HS Ho) as E. unfold free2 in E. rewrite E.
  destruct (sl_step_gen lt eq dflt Hd o c HS Ho) as (r & c' & E2 & _ & H2). rewrite E2 in *. cbn [fst snd].
  destruct (run (sl_step lt eq dflt) ops c') as [rs c2] eqn:E3. cbn [fst snd] in *. inversion Hf as [|? ? ? ? F1 F2]; subst.
  specialize (IH c' (H2 F1) Hos). rewrite E3 in IH. rewrite (IH F2). reflexivity.
Qed.
Lemma c115_effect_free_keylist : forall (W V K : Type) (srt : sorting W) (vlt eq : V -> V -> res bool) (klt keq : K -> K -> res bool) (kf : V -> res K)
  (dflt : nat) (ops : list (kop V K)) (w : W),
  sorts_as srt -> 1 <= dflt -> Forall kop_ok ops -> Forall2 kupdate_fine ops (fst (skl_run vlt eq klt keq kf dflt ops (skl_init dflt))) ->
  run (ek_step srt (fun x y => liftr (vlt x y)) (fun x y => liftr (eq x y)) (fun x y => liftr (klt x y)) (fun x y => liftr (keq x y))
         (fun v => liftr (kf v)) dflt) ops (w, skl_init dflt) =
  (fst (skl_run vlt eq klt keq kf dflt ops (skl_init dflt)), (w, snd (skl_run vlt eq klt keq kf dflt ops (skl_init dflt)))).
Proof.
  intros W V K srt vlt eq klt keq kf dflt ops w Hs Hd. assert (H0 : Shape kf (skl_init dflt : skl V K)) by (apply shape_empty; exact Hd).
  revert H0. generalize (skl_init dflt : skl V K) as c. unfold skl_run. induction ops as [|o ops IH]; intros c HS Hok Hf; [reflexivity|].
  inversion Hok as [|? ? Ho Hos]; subst. cbn [run] in *.
  pose proof (free_kstep srt vlt eq klt keq kf dflt Hs Hd o w c HS Ho) as E. unfold free2, free1 in E. rewrite E.
  destruct (skl_step_gen vlt eq klt keq kf dflt Hd o c HS Ho) as (r & c' & E2 & _ & H2). rewrite E2 in *. cbn [fst snd].
  destruct (run (skl_step vlt eq klt keq kf dflt) ops c') as [rs c2] eqn:E3. cbn [fst snd] in *. inversion Hf as [|? ? ? ? F1 F2]; subst.
  specialize (IH c' (H2 F1) Hos). rewrite E3 in IH. rewrite (IH F2). reflexivity.
Qed.

(** A key function that counts its calls and raises at the fourth. *)
Definition fourth (v : nat) : M nat nat := fun n => (if n =? 3 then Err TypeError else Ok v, S n).
Definition calm2 {W} (f : nat -> nat -> bool) (x y : nat) : M W bool := ret (f x y).
(** Comparisons that answer in turn yes and no. *)
Definition flip (_ _ : nat) : M bool bool := fun b => (Ok b, negb b).
(** [<] of numbers that raises when the call counter is a multiple of 7. *)
Definition sometimes (x y : nat) : M nat bool := fun n => (if n mod 7 =? 6 then Err TypeError else Ok (x <? y), S n).

Lemma c116_refuted : exists s s2 : nat * skl nat nat,
  let step := ek_step by_insertion (calm2 Nat.ltb) (calm2 Nat.eqb) (calm2 Nat.ltb) (calm2 Nat.eqb) fourth 1000 in
  step (KList (LUpdate [1; 2])) (0, skl_init 1000) = (RExn TypeError, s) /\
  fst (step (KList LIter) s) = RList [1; 2] /\ fst (step (KList LLen) s) = RNat 0 /\ ~ framed (kc (snd s)) /\
  step (KList (LAdd 5)) s = (RUnit, s2) /\ fst (step (KList LIter) s2) = RList [1; 2; 5] /\ fst (step (KList LLen) s2) = RNat 1 /\
  fst (step (KList (LContains 5)) s2) = RBool false.
Proof.
  eexists _, _. cbv zeta. split; [vm_compute; reflexivity|]. split; [vm_compute; reflexivity|]. split; [vm_compute; reflexivity|].
  split; [intros (H & _); vm_compute in H; discriminate|]. repeat (split; [vm_compute; reflexivity|]). vm_compute; reflexivity.
Qed.

(** [<] that answers no at its first call and yes ever after. *)
Definition once_no (_ _ : nat) : M nat bool := fun n => (Ok (0 <? n), S n).
Lemma c117_refuted : exists c : core nat nat,
  e_reach by_insertion once_no (calm2 Nat.eqb) 1000 c /\ concat (lists c) = [1] /\
  fst (e_step by_insertion once_no (calm2 Nat.eqb) 1000 (LContains 1) (0, c)) = RExn IndexError /\
  fst (e_step by_insertion once_no (calm2 Nat.eqb) 1000 (LCount 1) (0, c)) = RExn Underflow.
Proof.
  eexists. split; [|split; [|split]].
  - exists 0, [(0, LAdd 1)]. split; [repeat constructor|]. split; [repeat constructor|]. vm_compute. reflexivity.
  - reflexivity.
  - vm_compute. reflexivity.
  - vm_compute. reflexivity.
Qed.

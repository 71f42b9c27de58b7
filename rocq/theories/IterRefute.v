(** * Refuted claims about iterators after a change *)
From Verif Require Import PyBase Model Spec SpecFacts History Reach ListProps Concrete ModelHeap HeapSpec ModelIter IterSpec.
Local Unset Implicit Arguments.

Definition repeats_ops : list (iop nat) :=
  [IOp (WList []); IOp (WNew (WUser 0))] ++ map (fun n => IOp (WOp 0 (LAdd n))) (seq 0 4) ++ [IMake 0 LIter] ++ repeat (INext 0) 4 ++
  [IOp (WOp 0 (LAdd 4)); INext 0].
Lemma repeats_adds : Forall only_adds repeats_ops.
Proof. repeat constructor. Qed.
Lemma sorted_nth {A} (ltb : A -> A -> bool) l : sorted ltb l -> forall i j x y, i < j -> nth_error l i = Some x -> nth_error l j = Some y -> ltb y x = false.
Proof.
  unfold sorted. induction 1 as [|a l H IH HF]; intros [|i] [|j] x y Hij Hx Hy; cbn in *; try lia; try discriminate.
  - injection Hx as <-. rewrite Forall_forall in HF. apply HF. eapply nth_error_In, Hy.
  - apply (IH i j); auto. lia.
Qed.
Lemma c79_order_refuted : ~ (forall (V : Type) (ltb eqb : V -> V -> bool) (dflt : nat) (ops : list (iop V)) (k : nat),
  TotalOrder ltb eqb -> 1 <= dflt -> Forall only_adds ops -> sorted ltb (yielded k ops (fst (i_run (total2 ltb) (total2 eqb) dflt ops i_init)))).
Proof.
  intros H. specialize (H nat Nat.ltb Nat.eqb 2 repeats_ops 0 nat_total (le_S _ _ (le_n 1)) repeats_adds).
  pose proof (sorted_nth _ _ H 3 4 3 2 (Nat.lt_succ_diag_r 3)) as X. clear H.
  specialize (X eq_refl eq_refl). discriminate X.
Qed.

Definition stale_ops : list (iop nat) :=
  [IOp (WList [0; 1; 2; 3]); IOp (WNew (WUser 0)); IMake 0 LIter; INext 0; INext 0; INext 0; IOp (WOp 0 (LRemove 0)); IOp (WOp 0 (LRemove 3))].
Lemma c79_present_refuted : ~ (forall (V : Type) (ltb eqb : V -> V -> bool) (dflt : nat) (ops : list (iop V)) outs w its k v s' i it ob,
  TotalOrder ltb eqb -> 1 <= dflt -> Forall iop_ok ops -> i_run (total2 ltb) (total2 eqb) dflt ops i_init = (outs, (w, its)) ->
  i_step (total2 ltb) (total2 eqb) dflt (INext k) (w, its) = (IOut (RVal v), s') ->
  nth_error its k = Some (i, it) -> nth_error (w_objs w) i = Some ob -> In v (contents (view (w_heap w, ob)))).
Proof.
  intros H.
  assert (HO : Forall iop_ok stale_ops).
  { repeat constructor. }
  assert (X : let R := i_run (total2 Nat.ltb) (total2 Nat.eqb) 2 stale_ops i_init in
              match nth_error (snd (snd R)) 0, nth_error (w_objs (fst (snd R))) 0 with
              | Some (O, _), Some ob =>
                  match i_step (total2 Nat.ltb) (total2 Nat.eqb) 2 (INext 0) (snd R) with
                  | (IOut (RVal v), _) => existsb (Nat.eqb v) (contents (view (w_heap (fst (snd R)), ob))) = false
                  | _ => False
                  end
              | _, _ => False
              end) by (vm_compute; reflexivity).
  cbv zeta in X. destruct (i_run (total2 Nat.ltb) (total2 Nat.eqb) 2 stale_ops i_init) as [outs [w its]] eqn:HR. cbn [fst snd] in X.
  destruct (nth_error its 0) as [[[|i] it]|] eqn:E1; try contradiction. destruct (nth_error (w_objs w) 0) as [ob|] eqn:E2; [|contradiction].
  destruct (i_step _ _ 2 (INext 0) (w, its)) as [[[| | |v| |]|] s'] eqn:E3; try contradiction.
  pose proof (H nat Nat.ltb Nat.eqb 2 stale_ops outs w its 0 v s' 0 it ob nat_total (le_S _ _ (le_n 1)) HO HR E3 E1 E2) as HI.
  assert (Y : existsb (Nat.eqb v) (contents (view (w_heap w, ob))) = true) by (apply existsb_exists; exists v; split; [exact HI|apply Nat.eqb_refl]).
  congruence.
Qed.

Definition index_ops : list (iop nat) :=
  [IOp (WList [1; 2; 3]); IOp (WNew (WUser 0)); IMake 0 (LISlice None None false); INext 0; IOp (WOp 0 (LDel 0)); IOp (WOp 0 (LDel 0)); INext 0].
Lemma c79_runtime_error_refuted : ~ (forall (V : Type) (ltb eqb : V -> V -> bool) (ops : list (iop V)),
  TotalOrder ltb eqb -> Forall iop_ok ops -> ~ In IndexError (raised ops (fst (i_run (total2 ltb) (total2 eqb) 1000 ops i_init)))).
Proof.
  intros H. apply (H nat Nat.ltb Nat.eqb index_ops nat_total); [repeat constructor|]. vm_compute. left. reflexivity.
Qed.

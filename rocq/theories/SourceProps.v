(** * C129: the text of the methods (lemmas) *)
From Coq Require Import String.
From Verif Require Import PyBase BaseFacts Model CoreFacts Shape ListFacts ListSim Spec History HistFacts Reach.
From Verif Require Import SourceSyntax SourceText SourceSem SourceRep SourceMethods SourceRun SourceHist.
Local Open Scope string_scope.
Local Open Scope nat_scope.
Local Open Scope list_scope.
Local Unset Implicit Arguments.

Lemma c129_read : exists l, parse source = Some l /\
  map (fun i => match i with IDef f _ _ => f | IAlias a _ => a end) l =
    ["_reset"; "clear"; "_clear"; "add"; "_expand"; "update"; "_update"; "__contains__"; "discard"; "remove"; "_delete"; "_loc"; "_pos";
     "_build_index"; "__delitem__"; "__getitem__"; "_getitem"; "__iter__"; "__reversed__"; "islice"; "_islice"; "irange"; "__len__";
     "bisect_left"; "bisect_right"; "bisect"; "_bisect_right"; "count"; "pop"; "index"; "__iadd__"; "__imul__"].
Proof. exists klass. split; [vm_compute; reflexivity|reflexivity]. Qed.

Lemma c129_history : forall V (ltb eqb : V -> V -> bool) dflt ops,
  TotalOrder ltb eqb -> 1 <= dflt -> Forall lop_ok ops -> Forall (fun o => in_text o = true) ops ->
  exists enough, forall fuel depth, enough <= fuel -> 6 <= depth ->
    exists s, run (text_step (total2 ltb) (total2 eqb) (methods_of source) fuel depth) ops (fresh dflt) =
                (fst (sp_run ltb eqb ltb ops []), s) /\
      kept s = map VElt (snd (sp_run ltb eqb ltb ops [])).
Proof.
  intros V ltb eqb dflt ops HT Hd Hok Hin. rewrite methods_source.
  destruct (run_ok ltb eqb HT dflt Hd ops (sl_init dflt) (sl_init_inv ltb dflt Hd) Hok Hin) as (n0 & H).
  exists n0. intros n d Hn Hd5. replace d with (6 + (d - 6)) by lia.
  destruct (H n (d - 6) 0 1 2 (fresh dflt) Hn (fresh_holds dflt)) as (s & E & Hs). exists s.
  destruct (sl_run_ok ltb eqb HT dflt Hd ops (sl_init dflt) (sl_init_inv ltb dflt Hd) Hok) as (c & Ec & _ & Hc & _).
  unfold sl_run in Ec. rewrite Ec in E, Hs. cbn [fst snd] in E, Hs. change (contents (sl_init dflt)) with (@nil V) in *.
  split; [exact E|]. rewrite (kept_holds _ _ _ _ _ Hs), Hc. reflexivity.
Qed.

(** * C100: the values a SortedKeyList applies the key function to *)
From Verif Require Import PyBase Model Spec SpecFacts History Reach Concrete ConcreteCompare KeyUseSpec KeyUseProps.

(** C100: an operation applies the key function only to the values [touches o l] of KeyUseSpec.v, [l] being the contents: two key
    functions that answer alike for those give the same result and the same list, whatever they do for others and whatever the
    comparisons do. *)
Theorem C100_values_asked : forall V K (key : V -> K) kltb keqb vltb eqb vlt eq klt keq (kf kf' : V -> res K) dflt s l o,
  TotalOrder kltb keqb -> 1 <= dflt -> skl_reach key kltb keqb vltb eqb dflt s -> kshows s l ->
  agree kf kf' (touches o l) ->
  skl_step vlt eq klt keq kf dflt o s = skl_step vlt eq klt keq kf' dflt o s.
Proof. exact c100_values_asked. Qed.
Print Assumptions C100_values_asked.

Example C100_values_asked_case :
  TotalOrder Nat.ltb Nat.eqb /\ skl_reach last_digit Nat.ltb Nat.eqb Nat.ltb Nat.eqb 2 (nkey [12; 31; 2; 5; 45; 7; 8; 9]) /\
  kshows (nkey [12; 31; 2; 5; 45; 7; 8; 9]) [31; 12; 2; 5; 45; 7; 8; 9] /\
  agree new_only (total1 last_digit) (touches (KList (LAdd 104) : kop nat nat) [31; 12; 2; 5; 45; 7; 8; 9]) /\ new_only 31 = Err TypeError /\
  touches (KList (LUpdate [104; 101]) : kop nat nat) [31; 12; 2; 5; 45; 7; 8; 9] = [104; 101; 31; 12; 2; 5; 45; 7; 8; 9] /\
  touches (KList (LDelSlice (mkslice (Some 1%Z) (Some 6%Z) None)) : kop nat nat) [31; 12; 2; 5; 45; 7; 8; 9] = [31; 8; 9].
Proof.
  split; [apply nat_total|]. split; [apply nkey_reach|]. split; [vm_compute; reflexivity|].
  split; [intros v [<-|[]]; reflexivity|].
  vm_compute. repeat match goal with |- _ /\ _ => split end; reflexivity.
Qed.

(** C100: and it does ask for each of them: a key function that raises for one of these values makes the operation raise that. *)
Theorem C100_each_asked : forall V K (key : V -> K) kltb keqb vltb eqb vlt eq keq (kf : V -> res K) e dflt s l o,
  TotalOrder kltb keqb -> 1 <= dflt -> skl_reach key kltb keqb vltb eqb dflt s -> kshows s l ->
  (forall v, kf v = Ok (key v) \/ kf v = Err e) -> Exists (fun v => kf v = Err e) (touches o l) ->
  fst (skl_step vlt eq (total2 kltb) keq kf dflt o s) = RExn e.
Proof. exact c100_each_asked. Qed.
Print Assumptions C100_each_asked.

Example C100_each_asked_case :
  TotalOrder Nat.ltb Nat.eqb /\ skl_reach last_digit Nat.ltb Nat.eqb Nat.ltb Nat.eqb 2 (nkey [12; 31; 2; 5; 45; 7; 8; 9]) /\
  kshows (nkey [12; 31; 2; 5; 45; 7; 8; 9]) [31; 12; 2; 5; 45; 7; 8; 9] /\
  (forall v, new_only v = Ok (last_digit v) \/ new_only v = Err TypeError) /\
  Exists (fun v => new_only v = Err TypeError) (touches (KList (LUpdate [104; 101]) : kop nat nat) [31; 12; 2; 5; 45; 7; 8; 9]) /\
  fst (skl_step (total2 Nat.ltb) (total2 Nat.eqb) (total2 Nat.ltb) (total2 Nat.eqb) new_only 2 (KList (LUpdate [104; 101])) (nkey [12; 31; 2; 5; 45; 7; 8; 9])) = RExn TypeError.
Proof.
  split; [apply nat_total|]. split; [apply nkey_reach|]. split; [vm_compute; reflexivity|].
  split; [intros v; unfold new_only; destruct (v <? 100); auto|].
  split; [do 2 apply Exists_cons_tl; apply Exists_cons_hd; reflexivity|].
  vm_compute. repeat match goal with |- _ /\ _ => split end; reflexivity.
Qed.

(** C100: over any history in which the key function may answer differently, or raise, from one operation to the next, but answers as
    [key] does for the values an operation asks about, results and contents are those of the reference list sorted by [key].  So a
    list keeps working by the keys its values had when they were added, also when the key function has forgotten them. *)
Theorem C100_keys_remembered : forall V K (key : V -> K) kltb keqb vltb eqb dflt h s l,
  TotalOrder kltb keqb -> EqCompat (by_key key kltb) eqb -> TotalOrder vltb eqb -> 1 <= dflt ->
  skl_reach key kltb keqb vltb eqb dflt s -> kshows s l -> Forall kop_ok (map snd h) -> faithful key kltb vltb eqb h l ->
  let r := drift (total2 vltb) (total2 eqb) (total2 kltb) (total2 keqb) dflt h s in
  let r' := sp_krun eqb vltb key kltb (map snd h) l in
  fst r = fst r' /\ kshows (snd r) (snd r').
Proof. exact c100_keys_remembered. Qed.
Print Assumptions C100_keys_remembered.

Example C100_keys_remembered_case :
  TotalOrder Nat.ltb Nat.eqb /\ skl_reach last_digit Nat.ltb Nat.eqb Nat.ltb Nat.eqb 2 (nkey [12; 31; 2; 5; 45; 7; 8; 9]) /\
  kshows (nkey [12; 31; 2; 5; 45; 7; 8; 9]) [31; 12; 2; 5; 45; 7; 8; 9] /\
  EqCompat (by_key last_digit Nat.ltb) Nat.eqb /\ Forall kop_ok (map snd forgetful) /\ faithful last_digit Nat.ltb Nat.ltb Nat.eqb forgetful [31; 12; 2; 5; 45; 7; 8; 9] /\
  drift (total2 Nat.ltb) (total2 Nat.eqb) (total2 Nat.ltb) (total2 Nat.eqb) 2 forgetful (nkey [12; 31; 2; 5; 45; 7; 8; 9]) =
    ([RUnit; RBool true; RVal 104; RUnit; RUnit; RList [31; 12; 2; 103; 104; 45; 7; 8; 9]],
     snd (drift (total2 Nat.ltb) (total2 Nat.eqb) (total2 Nat.ltb) (total2 Nat.eqb) 2 forgetful (nkey [12; 31; 2; 5; 45; 7; 8; 9]))).
Proof.
  split; [apply nat_total|]. split; [apply nkey_reach|]. split; [vm_compute; reflexivity|].
  split; [apply last_digit_compat|]. split; [repeat constructor|].
  split; [vm_compute; repeat split; intros v Hv; repeat (destruct Hv as [<-|Hv]; [reflexivity|]); destruct Hv|].
  vm_compute. repeat match goal with |- _ /\ _ => split end; reflexivity.
Qed.

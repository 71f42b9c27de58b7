(** * Property theorems: splits and merges are rare (C83) *)
From Verif Require Import PyBase Model Spec History FaultSpec Concrete AmortSpec AmortProps.

(** C83: in every history of single-value operations and queries, whatever the comparisons do, all but few steps replace at most one
    internal list and keep the positional index: at most 3 per [load] additions and removals, plus 3 for each internal list at the start. *)
Theorem C83_list : forall V dflt (c : core V V) (ws : list (wild V)), 1 <= dflt -> wild_reach dflt c ->
  Forall (fun w => single (w_op w)) ws ->
  exists n, calm_but (wild_step dflt) (fun c => c) n c ws /\
    load c * n <= 3 * edits ws + 3 * load c * length (lists c).
Proof. exact c83_list. Qed.
Print Assumptions C83_list.

(** A failed step, a split, a merge, a removal in place and a query. *)
Example C83_list_case :
  (let c := (snd (wild_run 2 (map (mkwild (total2 Nat.ltb) (total2 Nat.eqb)) [LAdd 3; LAdd 1; LAdd 2; LAdd 4]) (sl_init 2))) in
   let ws := (mkwild (fun _ _ => Err TypeError) (total2 Nat.eqb) (LAdd 7) ::
     map (mkwild (total2 Nat.ltb) (total2 Nat.eqb)) [LAdd 5; LRemove 1; LRemove 2; LGet 0%Z]) in
   wild_reach 2 c /\ Forall (fun w => single (w_op w)) ws /\
   load c = 2 /\ edits ws = 4 /\ lists c = [[1; 2; 3; 4]] /\
   map (fun k => lists ((snd (wild_run 2 (firstn k ws) c)))) [1; 2; 3; 4; 5] =
     [[[1; 2; 3; 4]]; [[1; 2]; [3; 4; 5]]; [[2; 3; 4; 5]]; [[3; 4; 5]]; [[3; 4; 5]]]).
Proof.
  cbv zeta. split; [eexists; split; [|split; [|reflexivity]]; [repeat constructor|vm_compute; repeat constructor]|]. split; [repeat constructor|].
  vm_compute. repeat match goal with |- _ /\ _ => split end; reflexivity.
Qed.

(** C83: after building from an iterable, at most 3 per [load] additions and removals, plus 3. *)
Theorem C83_new : forall V (lt : V -> V -> res bool) dflt l (c : core V V) (ws : list (wild V)), 1 <= dflt -> sl_new lt dflt l = Ok c ->
  Forall (fun w => single (w_op w)) ws ->
  exists n, calm_but (wild_step dflt) (fun c => c) n c ws /\ dflt * n <= 3 * edits ws + 3 * dflt.
Proof. exact c83_new. Qed.
Print Assumptions C83_new.

Example C83_new_case : exists c, sl_new (total2 Nat.ltb) 2 [3; 1; 2; 5; 4] = Ok c /\ lists c = [[1; 2]; [3; 4]; [5]] /\
  (let ws := map (mkwild (total2 Nat.ltb) (total2 Nat.eqb)) [LPop 0%Z; LPop 0%Z; LPop 0%Z] in
   Forall (fun w => single (w_op w)) ws /\
   map (fun k => lists (snd (wild_run 2 (firstn k ws) c))) [1; 2; 3] = [[[2; 3; 4]; [5]]; [[3; 4]; [5]]; [[4; 5]]]).
Proof. eexists. split; [reflexivity|]. split; [reflexivity|]. cbv zeta. split; [repeat constructor|reflexivity]. Qed.

(** C83: starting from an empty SortedList, at most 3 per [load] additions and removals. *)
Theorem C83_empty : forall V dflt (ws : list (wild V)), 1 <= dflt -> Forall (fun w => single (w_op w)) ws ->
  exists n, calm_but (wild_step dflt) (fun c => c) n (sl_init dflt) ws /\ dflt * n <= 3 * edits ws.
Proof. exact c83_empty. Qed.
Print Assumptions C83_empty.

Example C83_empty_case : 
  (let ws := map (mkwild (total2 Nat.ltb) (total2 Nat.eqb)) [LAdd 3; LAdd 1; LAdd 2; LAdd 4; LAdd 5; LClear; LAdd 1] in
   Forall (fun w => single (w_op w)) ws /\ edits ws = 6 /\
   map (fun k => lists (snd (wild_run 2 (firstn k ws) (sl_init 2)))) [4; 5; 6; 7] = [[[1; 2; 3; 4]]; [[1; 2]; [3; 4; 5]]; []; [[1]]]).
Proof. cbv zeta. split; [repeat constructor|]. split; reflexivity. Qed.

(** C83 for SortedKeyList. *)
Theorem C83_keylist : forall V K (kf : V -> res K) dflt s (ws : list (kwild V K)), 1 <= dflt -> kwild_reach kf dflt s ->
  Forall (fun w => ksingle (kw_op w)) ws ->
  exists n, calm_but (kwild_step kf dflt) (@kc V K) n s ws /\
    load (kc s) * n <= 3 * kedits ws + 3 * load (kc s) * length (lists (kc s)).
Proof. exact c83_keylist. Qed.
Print Assumptions C83_keylist.

Example C83_keylist_case :
  (let s := (snd (kwild_run (total1 (fun x : nat => x)) 2 (map (mkkwild (total2 Nat.ltb) (total2 Nat.eqb) (total2 Nat.ltb) (total2 Nat.eqb)) [KList (LAdd 3); KList (LAdd 1); KList (LAdd 2); KList (LAdd 4)]) (skl_init 2))) in
   let ws := (mkkwild (total2 Nat.ltb) (total2 Nat.eqb) (fun _ _ => Err TypeError) (total2 Nat.eqb) (KList (LAdd 7)) ::
     map (mkkwild (total2 Nat.ltb) (total2 Nat.eqb) (total2 Nat.ltb) (total2 Nat.eqb)) [KList (LAdd 5); KList (LRemove 1); KList (LRemove 2); KBisectLeft 4]) in
   kwild_reach (total1 (fun x : nat => x)) 2 s /\ Forall (fun w => ksingle (kw_op w)) ws /\
   load (kc s) = 2 /\ kedits ws = 4 /\ lists (kc s) = [[1; 2; 3; 4]] /\
   map (fun k => lists (kc (snd (kwild_run (total1 (fun x : nat => x)) 2 (firstn k ws) s)))) [1; 2; 3; 4; 5] =
     [[[1; 2; 3; 4]]; [[1; 2]; [3; 4; 5]]; [[2; 3; 4; 5]]; [[3; 4; 5]]; [[3; 4; 5]]]).
Proof.
  cbv zeta. split; [eexists; split; [|split; [|reflexivity]]; [repeat constructor|vm_compute; repeat constructor]|]. split; [repeat constructor|].
  vm_compute. repeat match goal with |- _ /\ _ => split end; reflexivity.
Qed.

(** C83 for a SortedKeyList just built from an iterable. *)
Theorem C83_keynew : forall V K (klt : K -> K -> res bool) (kf : V -> res K) dflt l s (ws : list (kwild V K)), 1 <= dflt ->
  skl_new klt kf dflt l = Ok s -> Forall (fun w => ksingle (kw_op w)) ws ->
  exists n, calm_but (kwild_step kf dflt) (@kc V K) n s ws /\ dflt * n <= 3 * kedits ws + 3 * dflt.
Proof. exact c83_keynew. Qed.
Print Assumptions C83_keynew.

Example C83_keynew_case : exists s, skl_new (total2 Nat.ltb) (total1 (fun x : nat => 9 - x)) 2 [3; 1; 2; 5; 4] = Ok s /\ lists (kc s) = [[5; 4]; [3; 2]; [1]] /\
  (let ws := map (mkkwild (total2 Nat.ltb) (total2 Nat.eqb) (total2 Nat.ltb) (total2 Nat.eqb)) [KList (LPop 0%Z); KList (LPop 0%Z); KList (LPop 0%Z)] in
   Forall (fun w => ksingle (kw_op w)) ws /\
   map (fun k => lists (kc (snd (kwild_run (total1 (fun x : nat => 9 - x)) 2 (firstn k ws) s)))) [1; 2; 3] =
     [[[4; 3; 2]; [1]]; [[3; 2]; [1]]; [[2; 1]]]).
Proof. eexists. split; [reflexivity|]. split; [reflexivity|]. cbv zeta. split; [repeat constructor|reflexivity]. Qed.

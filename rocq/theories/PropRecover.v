(** * C109, C110: operations after which an object is as it should be, whatever it was before *)
From Coq Require Import Lia Permutation.
From Verif Require Import PyBase Model Spec History Reach ListClass ClassSpec ModelSet SetSpec ModelDict DictSpec Concrete ConcreteCompare ModelAgain RecoverSpec RecoverProps.

(** C109, SortedList: whatever the attributes hold (only [_load] is positive), [clear], [_reset], [*=], [*], [+], [copy] and a pickle round
    trip give an object that from then on does exactly what a sorted list of the values does that iteration showed before. *)
Theorem C109_list : forall V (ltb eqb : V -> V -> bool) dflt (c : core V V) l o m,
  TotalOrder ltb eqb -> 1 <= dflt -> 1 <= load c -> shows c l -> lop_ok o -> renews o l = Some m ->
  exists c', sl_do ltb eqb dflt o c = (RUnit, c') /\ sl_behaves ltb eqb dflt c' (sp_sort ltb m).
Proof. exact c109_list. Qed.
Print Assumptions C109_list.

Example C109_list_case :
  let c := mkcore [[3; 1]; []; [2]] [9] [7; 7; 7] 5 100 2 in
  TotalOrder Nat.ltb Nat.eqb /\ 1 <= load c /\ shows c [3; 1; 2] /\ renews (LIMul 2) [3; 1; 2] = Some [3; 1; 2; 3; 1; 2] /\
  renews LCopy [3; 1; 2] = Some [3; 1; 2] /\ sl_check (total2 Nat.ltb) (total2 Nat.eqb) c = Err AssertionError /\
  fst (sl_do Nat.ltb Nat.eqb 2 (LContains 3) c) = RExn IndexError /\
  contents (snd (sl_do Nat.ltb Nat.eqb 2 (LIMul 2) c)) = [1; 1; 2; 2; 3; 3] /\
  snd (sl_do Nat.ltb Nat.eqb 2 (LReset 4) c) = mkcore [[1; 2; 3]] [3] [] 0 3 4.
Proof. split; [apply nat_total|]. split; [cbn; lia|]. split; [reflexivity|]. vm_compute. repeat match goal with |- _ /\ _ => split end; reflexivity. Qed.

(** C109, SortedKeyList: the same, whatever [_keys] holds besides. *)
Theorem C109_keylist : forall V K (key : V -> K) (kltb keqb : K -> K -> bool) (vltb eqb : V -> V -> bool) dflt (s : skl V K) l o m,
  TotalOrder kltb keqb -> EqCompat (by_key key kltb) eqb -> 1 <= dflt -> 1 <= load (kc s) -> kshows s l -> lop_ok o -> renews o l = Some m ->
  exists s', skl_do key kltb keqb vltb eqb dflt (KList o) s = (RUnit, s') /\
    skl_behaves key kltb keqb vltb eqb dflt s' (sp_sort (by_key key kltb) m).
Proof. exact c109_keylist. Qed.
Print Assumptions C109_keylist.

Example C109_keylist_case :
  let s := mkskl (mkcore [[13; 1]; [2]] [] [7] 5 0 2) [[4]] in
  let do := skl_do last_digit Nat.ltb Nat.eqb Nat.ltb Nat.eqb 2 in
  TotalOrder Nat.ltb Nat.eqb /\ EqCompat (by_key last_digit Nat.ltb) Nat.eqb /\ 1 <= load (kc s) /\ kshows s [13; 1; 2] /\
  renews (LReset 3) [13; 1; 2] = Some [13; 1; 2] /\
  contents (kc (snd (do (KList (LReset 3)) s))) = [1; 2; 13] /\ keys (snd (do (KList (LReset 3)) s)) = [[1; 2; 3]] /\
  contents (kc (snd (do (KList (LPlus [21])) s))) = [1; 21; 2; 13].
Proof. split; [apply nat_total|]. split; [apply last_digit_compat|]. split; [cbn; lia|]. split; [reflexivity|]. vm_compute. repeat match goal with |- _ /\ _ => split end; reflexivity. Qed.

(** C109, SortedSet without a key function: whatever its list holds, [clear], [copy], a pickle round trip, [difference], [intersection],
    [symmetric_difference], [intersection_update], [symmetric_difference_update], and [update] and [difference_update] with more than a
    quarter as many values as there are members, do to the members what they should, and the object behaves from then on. *)
Theorem C109_set_plain : forall V K (ltb eqb : V -> V -> bool) dflt (ord : nat -> list V -> list V) (s : sset (core V V) V) (o : sop V K),
  TotalOrder ltb eqb -> 1 <= dflt -> any_order ord -> 1 <= load (s_list s) -> distinct eqb (s_set s) -> set_renews eqb o (s_set s) = true ->
  let T := plain (total2 ltb) (total2 eqb) dflt in
  exists l r s' l', Permutation l (s_set s) /\ sorted ltb l /\ ss_step T eqb ord o s = (r, s') /\
    set_effect eqb (fwd_plain ltb eqb) o l r l' /\ ss_behaves T ltb eqb (fwd_plain ltb eqb) ord s' l'.
Proof. exact c109_set_plain. Qed.
Print Assumptions C109_set_plain.

Example C109_set_plain_case :
  let s := mksset [5; 1; 3] (mkcore [[3; 3]; [9]] [1] [4] 0 7 2) 0 in
  TotalOrder Nat.ltb Nat.eqb /\ any_order back /\ 1 <= load (s_list s) /\ distinct Nat.eqb (s_set s) /\
  set_renews (K:=nat) Nat.eqb (SUpdate [AIter [4]]) (s_set s) = true /\ set_renews (K:=nat) Nat.eqb (SUpdate []) (s_set s) = false /\
  set_renews (K:=nat) Nat.eqb (SUnion []) (s_set s) = false /\
  fst (ss_iter nT s) = Ok [3; 3; 9] /\ fst (ss_iter nT (snd (ss_step nT Nat.eqb back (SUpdate [AIter [4]]) s))) = Ok [1; 3; 4; 5] /\
  fst (ss_iter nT (snd (ss_step nT Nat.eqb back (SUnion []) s))) = Ok [3; 9] /\
  fst (ss_iter nT (snd (ss_step nT Nat.eqb back SCopy s))) = Ok [1; 3; 5].
Proof.
  split; [apply nat_total|]. split; [apply back_order|]. split; [cbn; lia|]. split.
  - cbn. split; [intros x [<-|[<-|[]]]; reflexivity|]. split; [intros x [<-|[]]; reflexivity|]. split; [intros x []|exact I].
  - vm_compute. repeat match goal with |- _ /\ _ => split end; reflexivity.
Qed.

(** C109, SortedSet with a key function. *)
Theorem C109_set_keyed : forall V K (key : V -> K) (kltb keqb : K -> K -> bool) (eqb : V -> V -> bool) dflt (ord : nat -> list V -> list V)
  (s : sset (skl V K) V) (o : sop V K),
  TotalOrder kltb keqb -> Equiv eqb -> EqCompat (by_key key kltb) eqb -> 1 <= dflt -> any_order ord ->
  1 <= load (kc (s_list s)) -> distinct eqb (s_set s) -> set_renews eqb o (s_set s) = true ->
  let T := keyed (total2 eqb) (total2 kltb) (total2 keqb) (total1 key) dflt in
  exists l r s' l', Permutation l (s_set s) /\ sorted (by_key key kltb) l /\ ss_step T eqb ord o s = (r, s') /\
    set_effect eqb (fwd_keyed key kltb eqb) o l r l' /\ ss_behaves T (by_key key kltb) eqb (fwd_keyed key kltb eqb) ord s' l'.
Proof. exact c109_set_keyed. Qed.
Print Assumptions C109_set_keyed.

Example C109_set_keyed_case :
  let s := mksset [15; 1; 3] (mkskl (mkcore [[3; 3]; [9]] [1] [4] 0 7 2) []) 0 in
  let T := keyed (total2 Nat.eqb) (total2 Nat.ltb) (total2 Nat.eqb) (total1 last_digit) 2 in
  TotalOrder Nat.ltb Nat.eqb /\ Equiv Nat.eqb /\ EqCompat (by_key last_digit Nat.ltb) Nat.eqb /\ any_order back /\ 1 <= load (kc (s_list s)) /\
  distinct Nat.eqb (s_set s) /\ set_renews (K:=nat) Nat.eqb (SDifferenceUpdate [AIter [3]]) (s_set s) = true /\
  fst (ss_iter T (snd (ss_step T Nat.eqb back (SDifferenceUpdate [AIter [3]]) s))) = Ok [1; 15].
Proof.
  split; [apply nat_total|]. split; [(split; [apply Nat.eqb_refl|intros x y E; apply Nat.eqb_eq in E; subst; apply Nat.eqb_refl|intros x y z E1 E2; apply Nat.eqb_eq in E1, E2; subst; apply Nat.eqb_refl])|]. split; [apply last_digit_compat|]. split; [apply back_order|]. split; [cbn; lia|]. split.
  - cbn. split; [intros x [<-|[<-|[]]]; reflexivity|]. split; [intros x [<-|[]]; reflexivity|]. split; [intros x []|exact I].
  - vm_compute. repeat match goal with |- _ /\ _ => split end; reflexivity.
Qed.

(** C109, SortedDict without a key function: whatever its list holds, [clear], and [update] and [|=] of a dict that is not empty with more
    than a tenth as many items as it has, do to the items what they should, and the object behaves from then on; so does a pickle round
    trip where [dict.copy] copies in insertion order. *)
Theorem C109_dict_plain : forall A B K (ltb eqb : A -> A -> bool) (veqb : B -> B -> bool) dflt (s : sdict (core A A) A B) (o : dop A B K),
  TotalOrder ltb eqb -> 1 <= dflt -> 1 <= load (d_list s) -> distinct_keys eqb (d_items s) -> dict_renews eqb o (d_items s) = true ->
  let T := plain (total2 ltb) (total2 eqb) dflt in
  let fref := fwd_plain ltb eqb in
  exists s', sd_step T eqb veqb o s = (ONone, s') /\ sd_behaves T ltb eqb veqb fref s' (snd (ref_step ltb eqb veqb fref o (d_items s))).
Proof. exact c109_dict_plain. Qed.
Print Assumptions C109_dict_plain.

Example C109_dict_plain_case :
  let s := mksd [(5, 0); (1, 7)] (mkcore [[3; 3]; [9]] [1] [4] 0 7 2) in
  TotalOrder Nat.ltb Nat.eqb /\ 1 <= load (d_list s) /\ distinct_keys Nat.eqb (d_items s) /\
  dict_renews (K:=nat) Nat.eqb (DUpdate (APairs [(2, 2)])) (d_items s) = true /\
  dict_renews (K:=nat) Nat.eqb (DUpdate (APairs [])) (d_items s) = false /\
  fst (sd_items nT Nat.eqb s) = Err KeyError /\
  fst (sd_items nT Nat.eqb (snd (sd_step nT Nat.eqb Nat.eqb (DUpdate (APairs [(2, 2)])) s))) = Ok [(1, 7); (2, 2); (5, 0)] /\
  fst (sd_items nT Nat.eqb (snd (sd_step nT Nat.eqb Nat.eqb (DUpdate (APairs [])) s))) = Err KeyError.
Proof.
  split; [apply nat_total|]. split; [cbn; lia|]. split.
  - cbn. split; [intros x [<-|[]]; reflexivity|]. split; [intros x []|exact I].
  - vm_compute. repeat match goal with |- _ /\ _ => split end; reflexivity.
Qed.

(** C109, SortedDict with a key function. *)
Theorem C109_dict_keyed : forall A B K (key : A -> K) (kltb keqb : K -> K -> bool) (eqb : A -> A -> bool) (veqb : B -> B -> bool) dflt
  (s : sdict (skl A K) A B) (o : dop A B K),
  TotalOrder kltb keqb -> Equiv eqb -> EqCompat (by_key key kltb) eqb -> 1 <= dflt ->
  1 <= load (kc (d_list s)) -> distinct_keys eqb (d_items s) -> dict_renews eqb o (d_items s) = true ->
  let T := keyed (total2 eqb) (total2 kltb) (total2 keqb) (total1 key) dflt in
  let fref := fwd_keyed key kltb eqb in
  exists s', sd_step T eqb veqb o s = (ONone, s') /\
    sd_behaves T (by_key key kltb) eqb veqb fref s' (snd (ref_step (by_key key kltb) eqb veqb fref o (d_items s))).
Proof. exact c109_dict_keyed. Qed.
Print Assumptions C109_dict_keyed.

Example C109_dict_keyed_case :
  let s := mksd [(15, 0); (1, 7)] (mkskl (mkcore [[3; 3]; [9]] [1] [4] 0 7 2) []) in
  let T := keyed (total2 Nat.eqb) (total2 Nat.ltb) (total2 Nat.eqb) (total1 last_digit) 2 in
  TotalOrder Nat.ltb Nat.eqb /\ Equiv Nat.eqb /\ EqCompat (by_key last_digit Nat.ltb) Nat.eqb /\ 1 <= load (kc (d_list s)) /\
  distinct_keys Nat.eqb (d_items s) /\ dict_renews (K:=nat) Nat.eqb (DIOr (ADict [(2, 2)])) (d_items s) = true /\
  fst (sd_items T Nat.eqb (snd (sd_step T Nat.eqb Nat.eqb (DIOr (ADict [(2, 2)])) s))) = Ok [(1, 7); (2, 2); (15, 0)].
Proof.
  split; [apply nat_total|]. split; [(split; [apply Nat.eqb_refl|intros x y E; apply Nat.eqb_eq in E; subst; apply Nat.eqb_refl|intros x y z E1 E2; apply Nat.eqb_eq in E1, E2; subst; apply Nat.eqb_refl])|]. split; [apply last_digit_compat|]. split; [cbn; lia|]. split.
  - cbn. split; [intros x [<-|[]]; reflexivity|]. split; [intros x []|exact I].
  - vm_compute. repeat match goal with |- _ /\ _ => split end; reflexivity.
Qed.

(** C110, SortedList: [__init__] called on a list again, whatever its attributes hold, replaces its values, and the object is as a new one. *)
Theorem C110_list : forall V (ltb eqb : V -> V -> bool) dflt (c : core V V) it,
  TotalOrder ltb eqb -> 1 <= dflt ->
  exists c', sl_again (total2 ltb) dflt it c = (Ok tt, c') /\ sl_behaves ltb eqb dflt c' (sp_sort ltb it).
Proof. exact c110_list. Qed.
Print Assumptions C110_list.

Example C110_list_case :
  let c := mkcore [[3; 1]; []; [2]] [9] [7; 7; 7] 5 100 0 in
  TotalOrder Nat.ltb Nat.eqb /\ sl_again (total2 Nat.ltb) 2 [6; 4] c = (Ok tt, mkcore [[4; 6]] [6] [] 0 2 2).
Proof. split; [apply nat_total|]. vm_compute. repeat match goal with |- _ /\ _ => split end; reflexivity. Qed.

(** C110, SortedKeyList, with the key function given to [__init__]. *)
Theorem C110_keylist : forall V K (key : V -> K) (kltb keqb : K -> K -> bool) (vltb eqb : V -> V -> bool) dflt (s : skl V K) it,
  TotalOrder kltb keqb -> EqCompat (by_key key kltb) eqb -> 1 <= dflt ->
  exists s', skl_again (total2 kltb) (total1 key) dflt it s = (Ok tt, s') /\
    skl_behaves key kltb keqb vltb eqb dflt s' (sp_sort (by_key key kltb) it).
Proof. exact c110_keylist. Qed.
Print Assumptions C110_keylist.

Example C110_keylist_case :
  let s := mkskl (mkcore [[3; 1]; []; [2]] [9] [7; 7; 7] 5 100 0) [] in
  TotalOrder Nat.ltb Nat.eqb /\ EqCompat (by_key last_digit Nat.ltb) Nat.eqb /\
  skl_again (total2 Nat.ltb) (total1 last_digit) 2 [6; 14] s = (Ok tt, mkskl (mkcore [[14; 6]] [6] [] 0 2 2) [[4; 6]]).
Proof. split; [apply nat_total|]. split; [apply last_digit_compat|]. vm_compute. repeat match goal with |- _ /\ _ => split end; reflexivity. Qed.

(** C110, SortedSet: [__init__] called on a set again keeps its members, whatever its list holds and whichever key function is given now,
    and adds those of the iterable as [update] does (a built-in set replaces its members); the object behaves from then on. *)
Theorem C110_set : forall S0 S V K (T : listcls S V K) (ltb eqb : V -> V -> bool) fref dflt (ord : nat -> list V -> list V)
  (s : sset S0 V) (it : option (arg (V:=V))),
  list_class T ltb eqb fref dflt -> any_order ord -> distinct eqb (s_set s) ->
  exists l s' l', Permutation l (s_set s) /\ sorted ltb l /\ ss_again T eqb ord it s = Ok s' /\
    set_effect eqb fref (SUpdate (match it with Some a => [a] | None => [] end)) l RUnit l' /\ ss_behaves T ltb eqb fref ord s' l'.
Proof. exact c110_set. Qed.
Print Assumptions C110_set.

Example C110_set_case :
  let s := mksset [15; 1; 3] (mkcore [[3; 3]; [9]] [1] [4] 0 7 0) 0 in
  let T := keyed (total2 Nat.eqb) (total2 Nat.ltb) (total2 Nat.eqb) (total1 last_digit) 2 in
  list_class T (by_key last_digit Nat.ltb) Nat.eqb (fwd_keyed last_digit Nat.ltb Nat.eqb) 2 /\ any_order back /\ distinct Nat.eqb (s_set s) /\
  match ss_again T Nat.eqb back (Some (AIter [24; 1])) s with Ok s' => fst (ss_iter T s') = Ok [1; 3; 24; 15] | Err _ => False end /\
  match ss_again nT Nat.eqb back None s with Ok s' => fst (ss_iter nT s') = Ok [1; 3; 15] | Err _ => False end.
Proof.
  split; [apply class_keyed; [apply nat_total|(split; [apply Nat.eqb_refl|intros x y E; apply Nat.eqb_eq in E; subst; apply Nat.eqb_refl|intros x y z E1 E2; apply Nat.eqb_eq in E1, E2; subst; apply Nat.eqb_refl])|apply last_digit_compat|lia]|]. split; [apply back_order|]. split.
  - cbn. split; [intros x [<-|[<-|[]]]; reflexivity|]. split; [intros x [<-|[]]; reflexivity|]. split; [intros x []|exact I].
  - vm_compute. repeat match goal with |- _ /\ _ => split end; reflexivity.
Qed.

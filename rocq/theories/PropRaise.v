(** * C112 to C114: hash tables whose lookups may raise *)
From Coq Require Import Lia Permutation.
From Verif Require Import PyBase Model Spec History ListClass ModelSet ModelDict ModelHash RaiseSpec RaiseProps.

(** C112, SortedSet: whatever the set and its list hold, if [v in s] raises then [add], [discard], [remove] and [count] raise the same
    and change nothing, and if it does not then they do exactly what they do where hash and [==] are total. *)
Theorem C112_set : forall V B S K (hash : V -> res Z) heq probe (T : listcls S V K) ord o v (s : sset S V),
  coherent_hash hash heq -> layout probe -> set_arg o = Some v ->
  match fst (hs_contains hash heq probe v s) with
  | Err e => hs_step (B:=B) hash heq probe T ord o s = (Err e, s)
  | Ok _ => hs_step (B:=B) hash heq probe T ord o s = set_total T (fun x y => yes (heq x y)) ord o s
  end.
Proof. exact c112_set. Qed.
Print Assumptions C112_set.

Example C112_set_case :
  let T := plain (K:=nat) (total2 Nat.ltb) clash 2 in
  let s := hs_run (B:=unit) ending clash as_stored T keep_order [HUpdate [1; 3]] (mksset [] (sl_init 2) 0) in
  coherent_hash ending clash /\ layout as_stored /\ set_arg (HAdd 11) = Some 11 /\
  fst (hs_contains ending clash as_stored 11 s) = Err TypeError /\ fst (hs_contains ending clash as_stored 2 s) = Ok false /\
  hs_step (B:=unit) ending clash as_stored T keep_order (HAdd 11) s = (Err TypeError, s) /\
  s_set (snd (hs_step (B:=unit) ending clash as_stored T keep_order (HAdd 2) s)) = [1; 3; 2] /\
  contents (s_list (snd (hs_step (B:=unit) ending clash as_stored T keep_order (HAdd 2) s))) = [1; 2; 3].
Proof. split; [apply clash_facts|]. split; [apply clash_facts|]. vm_compute. repeat match goal with |- _ /\ _ => split end; reflexivity. Qed.

(** C112, SortedDict: the same for [d[k] = v], [del d[k]], [pop], [setdefault] and [d[k]]. *)
Theorem C112_dict : forall V B S K (hash : V -> res Z) heq probe (T : listcls S V K) o k (s : sdict S V B),
  coherent_hash hash heq -> layout probe -> dict_arg o = Some k ->
  match fst (hd_contains hash heq probe k s) with
  | Err e => hd_step hash heq probe T o s = (Err e, s)
  | Ok _ => hd_step hash heq probe T o s = dict_total T (fun x y => yes (heq x y)) o s
  end.
Proof. exact c112_dict. Qed.
Print Assumptions C112_dict.

Example C112_dict_case :
  let T := plain (K:=nat) (total2 Nat.ltb) clash 2 in
  let s := hd_run (B:=nat) ending clash as_stored T [GUpdate (APairs [(1, 5); (3, 6)])] (mksd [] (sl_init 2)) in
  coherent_hash ending clash /\ layout as_stored /\ dict_arg (GSet 11 (B:=nat) 0) = Some 11 /\
  fst (hd_contains ending clash as_stored 11 s) = Err TypeError /\
  hd_step ending clash as_stored T (GSet 11 0) s = (Err TypeError, s) /\ hd_step ending clash as_stored T (GPop 11 (Some 1)) s = (Err TypeError, s) /\
  d_items (snd (hd_step ending clash as_stored T (GSet 2 7) s)) = [(1, 5); (3, 6); (2, 7)] /\
  fst (hd_step ending clash as_stored T (GPop 3 None) s) = Ok (HvVal 6).
Proof. split; [apply clash_facts|]. split; [apply clash_facts|]. vm_compute. repeat match goal with |- _ /\ _ => split end; reflexivity. Qed.

(** C112: every operation, also [update] and the like, that does not raise does what it does where hash and [==] are total. *)
Theorem C112_success : forall V B S K (hash : V -> res Z) heq probe (T : listcls S V K) ord,
  coherent_hash hash heq -> layout probe ->
  (forall o (s : sset S V) r s', hs_step (B:=B) hash heq probe T ord o s = (Ok r, s') -> set_total T (fun x y => yes (heq x y)) ord o s = (Ok r, s')) /\
  (forall o (s : sdict S V B) r s', hd_step hash heq probe T o s = (Ok r, s') -> dict_total T (fun x y => yes (heq x y)) o s = (Ok r, s')).
Proof. exact c112_success. Qed.
Print Assumptions C112_success.

Example C112_success_case :
  let T := plain (K:=nat) (total2 Nat.ltb) clash 2 in
  let s := hs_run (B:=unit) ending clash as_stored T keep_order [HUpdate [1; 3]] (mksset [] (sl_init 2) 0) in
  coherent_hash ending clash /\ layout as_stored /\
  fst (hs_step (B:=unit) ending clash as_stored T keep_order (HUpdate [5; 2]) s) = Ok HvNone /\
  fst (hs_step (B:=unit) ending clash as_stored T keep_order (HUpdate [5; 12; 2]) s) = Err TypeError /\
  contents (s_list (snd (hs_step (B:=unit) ending clash as_stored T keep_order (HUpdate [5; 2]) s))) = [1; 2; 3; 5].
Proof. split; [apply clash_facts|]. split; [apply clash_facts|]. vm_compute. repeat match goal with |- _ /\ _ => split end; reflexivity. Qed.

(** C113, SortedSet: after any history, also one in which hash, [==] or the list raised, every member is found in the hash set; so [pop] and
    [del s[i]], which change or read the list before they look the value up, do what they do where hash and [==] are total, as long as
    the value in the list is a member. *)
Theorem C113_set : forall V B S K (hash : V -> res Z) heq probe (T : listcls S V K) ord ops x t i,
  coherent_hash hash heq -> layout probe -> itself heq -> two_sided heq ->
  let s := hs_run (B:=B) hash heq probe T ord ops (mksset [] x t) in
  (forall v, In v (s_set s) -> fst (hs_contains hash heq probe v s) = Ok true) /\
  ((forall v, fst (l_pop T i (s_list s)) = Ok v -> In v (s_set s)) ->
    hs_step (B:=B) hash heq probe T ord (HPop i) s = set_total T (fun x y => yes (heq x y)) ord (HPop i) s) /\
  ((forall v, fst (l_get T i (s_list s)) = Ok v -> In v (s_set s)) ->
    hs_step (B:=B) hash heq probe T ord (HDel i) s = set_total T (fun x y => yes (heq x y)) ord (HDel i) s).
Proof. exact c113_set. Qed.
Print Assumptions C113_set.

Example C113_set_case :
  let T := plain (K:=nat) (total2 Nat.ltb) clash 2 in
  let s := hs_run (B:=unit) ending clash as_stored T keep_order [HUpdate [1; 3]; HAdd 11; HDiscard 1; HAdd 11; HUpdate [5; 13]] (mksset [] (sl_init 2) 0) in
  coherent_hash ending clash /\ layout as_stored /\ itself clash /\ two_sided clash /\
  s_set s = [3; 11; 5] /\ contents (s_list s) = [3; 11] /\ fst (l_pop T (-1)%Z (s_list s)) = Ok 11 /\
  fst (hs_step (B:=unit) ending clash as_stored T keep_order (HPop (-1)) s) = Ok (HvKey 11) /\
  s_set (snd (hs_step (B:=unit) ending clash as_stored T keep_order (HPop (-1)) s)) = [3; 5].
Proof. destruct clash_facts as (H1 & H2 & H3 & H4). split; [exact H1|]. split; [exact H2|]. split; [exact H3|]. split; [exact H4|]. vm_compute. repeat match goal with |- _ /\ _ => split end; reflexivity. Qed.

(** C113, SortedDict: the same for [popitem] and [peekitem]. *)
Theorem C113_dict : forall V B S K (hash : V -> res Z) heq probe (T : listcls S V K) ops x i,
  coherent_hash hash heq -> layout probe -> itself heq -> two_sided heq ->
  let s := hd_run (B:=B) hash heq probe T ops (mksd [] x) in
  (forall k, In k (map fst (d_items s)) -> fst (hd_contains hash heq probe k s) = Ok true) /\
  ((forall k, fst (l_pop T i (d_list s)) = Ok k -> In k (map fst (d_items s))) ->
    hd_step hash heq probe T (GPopItem i) s = dict_total T (fun x y => yes (heq x y)) (GPopItem i) s) /\
  ((forall k, fst (l_get T i (d_list s)) = Ok k -> In k (map fst (d_items s))) ->
    hd_step hash heq probe T (GPeekItem i) s = dict_total T (fun x y => yes (heq x y)) (GPeekItem i) s).
Proof. exact c113_dict. Qed.
Print Assumptions C113_dict.

Example C113_dict_case :
  let T := plain (K:=nat) (total2 Nat.ltb) clash 2 in
  let s := hd_run (B:=nat) ending clash as_stored T [GUpdate (APairs [(1, 5); (3, 6)]); GSet 11 0; GDel 1; GSetDefault 11 7] (mksd [] (sl_init 2)) in
  coherent_hash ending clash /\ layout as_stored /\ itself clash /\ two_sided clash /\
  d_items s = [(3, 6); (11, 7)] /\ fst (l_pop T (-1)%Z (d_list s)) = Ok 11 /\
  fst (hd_step ending clash as_stored T (GPopItem (-1)) s) = Ok (HvPair (11, 7)).
Proof. destruct clash_facts as (H1 & H2 & H3 & H4). split; [exact H1|]. split; [exact H2|]. split; [exact H3|]. split; [exact H4|]. vm_compute. repeat match goal with |- _ /\ _ => split end; reflexivity. Qed.

(** C114, refuted: when [==] raises in the hash set during [update], [difference_update] or [symmetric_difference_update], the list may no
    longer hold the members.  The members of {1, 3, 4} after [update([3, 2, 5, 11])], where comparing 1 and 11 raises, are 1, 3, 4, 2 and 5,
    while the list keeps 1, 3 and 4 (sortedset.py:650-652). *)
Theorem C114_set_refuted : forall f, In f [HUpdate; HDifferenceUpdate; HSymmetricDifferenceUpdate] ->
  ~ (forall (hash : nat -> res Z) heq probe ord dflt first its,
    coherent_hash hash heq -> layout probe -> itself heq -> two_sided heq -> (forall n l, Permutation (ord n l) l) -> 1 <= dflt ->
    let T := plain (K:=nat) (total2 Nat.ltb) heq dflt in
    let s := hs_run (B:=unit) hash heq probe T ord [HUpdate first; f its] (mksset [] (sl_init dflt) 0) in
    Permutation (s_set s) (contents (s_list s))).
Proof. exact c114_set. Qed.
Print Assumptions C114_set_refuted.

Example C114_set_refuted_case :
  let T := plain (K:=nat) (total2 Nat.ltb) clash 2 in
  let after o := hs_run (B:=unit) ending clash as_stored T keep_order [HUpdate [1; 3; 4]; o] (mksset [] (sl_init 2) 0) in
  let both s := (s_set s, contents (s_list s)) in
  both (after (HUpdate [3; 2; 5; 11])) = ([1; 3; 4; 2; 5], [1; 3; 4]) /\
  both (after (HDifferenceUpdate [3; 2; 5; 11])) = ([1; 4], [1; 3; 4]) /\
  both (after (HSymmetricDifferenceUpdate [3; 2; 5; 11])) = ([1; 4; 2; 5], [1; 3; 4]) /\
  both (after (HIntersectionUpdate [3; 2; 5; 11])) = ([1; 3; 4], [1; 3; 4]).
Proof. vm_compute. repeat match goal with |- _ /\ _ => split end; reflexivity. Qed.

(** C114, refuted for [SortedDict.update] as well (sorteddict.py:511-513). *)
Theorem C114_dict_refuted : ~ (forall (hash : nat -> res Z) heq probe dflt first a,
    coherent_hash hash heq -> layout probe -> itself heq -> two_sided heq -> 1 <= dflt ->
    let T := plain (K:=nat) (total2 Nat.ltb) heq dflt in
    let s := hd_run (B:=nat) hash heq probe T [GUpdate first; GUpdate a] (mksd [] (sl_init dflt)) in
    Permutation (map fst (d_items s)) (contents (d_list s))).
Proof. exact c114_dict. Qed.
Print Assumptions C114_dict_refuted.

Example C114_dict_refuted_case :
  let T := plain (K:=nat) (total2 Nat.ltb) clash 2 in
  let s := hd_run (B:=nat) ending clash as_stored T [GUpdate (APairs [(1, 0)]); GUpdate (APairs [(2, 0); (11, 0)])] (mksd [] (sl_init 2)) in
  d_items s = [(1, 0); (2, 0)] /\ contents (d_list s) = [1] /\
  fst (hd_step ending clash as_stored T (GDel 2) s) = Err ValueError.
Proof. vm_compute. repeat match goal with |- _ /\ _ => split end; reflexivity. Qed.

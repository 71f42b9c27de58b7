(** * Property theorems: inherited operations of the dict views and of SortedSet (C67-C71) *)
From Verif Require Import PyBase Model Spec History Reach Concrete ListClass ClassSpec ModelSet SetSpec ConcreteSet
  ModelDict DictSpec ConcreteDict ModelView ViewSpec ViewProps ConcreteView.

(** C67: for a set or iterable [a], the set operators of [sd.keys()] build a SortedSet without key
    function that has exactly the members the operator stands for, sorted by the natural order of the keys; the dict is unchanged. *)
Theorem C67_keys_view_operators : forall S A B K KN (T : listcls S A K) ltb eqb (veqb : B -> B -> bool) fref dflt s l nltb ndflt ord op t a,
  list_class T ltb eqb fref dflt -> sd_reach T eqb veqb s -> sd_shows T eqb s l ->
  TotalOrder nltb eqb -> 1 <= ndflt -> any_order ord ->
  let N := plain (K:=KN) (total2 nltb) (total2 eqb) ndflt in
  exists r lr, mix_op (keys_view T eqb) N eqb ord op t a s = (Ok r, s) /\ ss_reach N eqb ord r /\ ss_shows N r lr /\
    sorted nltb lr /\ distinct eqb lr /\
    (forall k, member eqb k lr <-> vop_means op (member eqb k (map fst l)) (member eqb k (items a))) /\
    (forall k, In k lr -> In k (vop_source op (map fst l) (items a))).
Proof. exact c67_operators. Qed.
Print Assumptions C67_keys_view_operators.

Example C67_operators_case : list_class kT (by_key (@fst nat nat) Nat.ltb) pairb (fwd_keyed (@fst nat nat) Nat.ltb pairb) 2 /\
  sd_reach kT pairb Nat.eqb kdd_ex /\ sd_shows kT pairb kdd_ex kdd_l /\ TotalOrder tupb pairb /\ 1 <= 2 /\ any_order flip /\
  (let run op a := set_list tupN (mix_op (keys_view kT pairb) tupN pairb flip op 0 a kdd_ex) in
   let a := [(3, 0); (7, 7); (1, 1); (3, 0)] in
   run VAnd (AIter a) = Ok [(1, 1); (3, 0)] /\
   run VOr (AIter a) = Ok [(1, 0); (1, 1); (3, 0); (3, 1); (3, 2); (3, 3); (3, 5); (7, 7)] /\
   run VSub (AIter a) = Ok [(1, 0); (3, 1); (3, 2); (3, 3); (3, 5)] /\
   run VRSub (AIter a) = Ok [(7, 7)] /\
   run VXor (AIter a) = Ok [(1, 0); (3, 1); (3, 2); (3, 3); (3, 5); (7, 7)] /\
   run VXor (ASet [(7, 7); (1, 1); (3, 0)]) = Ok [(1, 0); (3, 1); (3, 2); (3, 3); (3, 5); (7, 7)]).
Proof.
  split; [apply kT_class|]. split; [apply kdd_ex_reach|]. split; [apply kdd_ex_shows|]. split; [apply tup_total|]. split; [lia|].
  split; [apply flip_order|]. vm_compute. repeat match goal with |- _ /\ _ => split end; reflexivity.
Qed.

(** C67: [isdisjoint] and the six comparisons of [sd.keys()] with a set answer the questions they stand for. *)
Theorem C67_keys_view_comparisons : forall S A B K (T : listcls S A K) ltb eqb (veqb : B -> B -> bool) fref dflt s l other,
  list_class T ltb eqb fref dflt -> sd_reach T eqb veqb s -> sd_shows T eqb s l ->
  (exists b, mix_isdisjoint (keys_view T eqb) other s = (Ok b, s) /\ (b = true <-> disjoint eqb (map fst l) other)) /\
  (distinct eqb other -> forall op, exists b, mix_compare (keys_view T eqb) eqb op other s = (Ok b, s) /\
     (b = true <-> set_cmp_means eqb op (map fst l) other)).
Proof. exact c67_compare. Qed.
Print Assumptions C67_keys_view_comparisons.

Example C67_comparisons_case : list_class pT pltb peqb (fwd_plain pltb peqb) 2 /\ sd_reach pT peqb Nat.eqb dd_ex /\ sd_shows pT peqb dd_ex dd_l /\
  distinct peqb [(5, 5); (1, 0); (8, 8)] /\
  fst (mix_isdisjoint (keys_view pT peqb) [(6, 0); (22, 7)] dd_ex) = Ok false /\
  fst (mix_isdisjoint (keys_view pT peqb) [(6, 0); (7, 7)] dd_ex) = Ok true /\
  map (fun op => fst (mix_compare (keys_view pT peqb) peqb op [(5, 5); (1, 0); (8, 8)] dd_ex)) [Ceq; Cne; Clt; Cgt; Cle; Cge]
  = [Ok false; Ok true; Ok false; Ok true; Ok false; Ok true].
Proof.
  split; [apply pT_class|]. split; [apply dd_ex_reach|]. split; [apply dd_ex_shows|]. split; [cbn; intuition (subst; reflexivity)|].
  vm_compute. repeat match goal with |- _ /\ _ => split end; reflexivity.
Qed.

(** C68: for a set or iterable [a] of pairs, the set operators of [sd.items()] build a SortedSet of
    pairs that has exactly the members the operator stands for, in the natural order of pairs; the dict is unchanged. *)
Theorem C68_items_view_operators : forall S A B K KN (T : listcls S A K) ltb eqb (veqb : B -> B -> bool) fref dflt s l nltb ndflt ord op t a,
  list_class T ltb eqb fref dflt -> sd_reach T eqb veqb s -> sd_shows T eqb s l ->
  TotalOrder nltb (item_eqb eqb veqb) -> 1 <= ndflt -> any_order ord ->
  let eqp := item_eqb eqb veqb in let N := plain (K:=KN) (total2 nltb) (total2 eqp) ndflt in
  exists r lr, mix_op (items_view T eqb veqb) N eqp ord op t a s = (Ok r, s) /\ ss_reach N eqp ord r /\ ss_shows N r lr /\
    sorted nltb lr /\ distinct eqp lr /\
    (forall p, member eqp p lr <-> vop_means op (member eqp p l) (member eqp p (items a))) /\
    (forall p, In p lr -> In p (vop_source op l (items a))).
Proof. exact c68_operators. Qed.
Print Assumptions C68_items_view_operators.

Example C68_operators_case : list_class pT pltb peqb (fwd_plain pltb peqb) 2 /\ sd_reach pT peqb Nat.eqb dd_ex /\ sd_shows pT peqb dd_ex dd_l /\
  TotalOrder itemb (item_eqb peqb Nat.eqb) /\ 1 <= 2 /\ any_order itflip /\
  (let run op a := set_list itemN (mix_op (items_view pT peqb Nat.eqb) itemN (item_eqb peqb Nat.eqb) itflip op 0 a dd_ex) in
   let a := [((5, 9), 50); ((4, 0), 41); ((22, 1), 3)] in
   run VAnd (AIter a) = Ok [((5, 9), 50); ((22, 1), 3)] /\
   run VSub (ASet a) = Ok [((1, 1), 11); ((2, 0), 20); ((3, 1), 39); ((4, 0), 40); ((8, 0), 80); ((9, 0), 97)] /\
   run VRSub (ASet a) = Ok [((4, 0), 41)] /\
   run VOr (AIter a) = Ok [((1, 1), 11); ((2, 0), 20); ((3, 1), 39); ((4, 0), 40); ((4, 0), 41); ((5, 0), 50); ((8, 0), 80); ((9, 0), 97); ((22, 0), 3)] /\
   run VXor (AIter a) = Ok [((1, 1), 11); ((2, 0), 20); ((3, 1), 39); ((4, 0), 40); ((4, 0), 41); ((8, 0), 80); ((9, 0), 97)]).
Proof.
  split; [apply pT_class|]. split; [apply dd_ex_reach|]. split; [apply dd_ex_shows|]. split; [apply item_total|]. split; [lia|].
  split; [apply itflip_order|]. vm_compute. repeat match goal with |- _ /\ _ => split end; reflexivity.
Qed.

(** C68: [isdisjoint] and the six comparisons of [sd.items()] with a set of pairs answer the questions
    they stand for. *)
Theorem C68_items_view_comparisons : forall S A B K (T : listcls S A K) ltb eqb (veqb : B -> B -> bool) fref dflt s l other,
  list_class T ltb eqb fref dflt -> Equiv veqb -> sd_reach T eqb veqb s -> sd_shows T eqb s l ->
  let eqp := item_eqb eqb veqb in
  (exists b, mix_isdisjoint (items_view T eqb veqb) other s = (Ok b, s) /\ (b = true <-> disjoint eqp l other)) /\
  (distinct eqp other -> forall op, exists b, mix_compare (items_view T eqb veqb) eqp op other s = (Ok b, s) /\
     (b = true <-> set_cmp_means eqp op l other)).
Proof. exact c68_compare. Qed.
Print Assumptions C68_items_view_comparisons.

Example C68_comparisons_case : list_class pT pltb peqb (fwd_plain pltb peqb) 2 /\ Equiv Nat.eqb /\ sd_reach pT peqb Nat.eqb dd_ex /\ sd_shows pT peqb dd_ex dd_l /\
  distinct (item_eqb peqb Nat.eqb) [((5, 9), 50); ((4, 0), 41)] /\
  fst (mix_isdisjoint (items_view pT peqb Nat.eqb) [((5, 9), 51); ((4, 0), 41)] dd_ex) = Ok true /\
  fst (mix_isdisjoint (items_view pT peqb Nat.eqb) [((5, 9), 50); ((4, 0), 41)] dd_ex) = Ok false /\
  map (fun op => fst (mix_compare (items_view pT peqb Nat.eqb) (item_eqb peqb Nat.eqb) op [((5, 9), 50); ((4, 0), 41)] dd_ex)) [Ceq; Cne; Clt; Cgt; Cle; Cge]
  = [Ok false; Ok true; Ok false; Ok false; Ok false; Ok false] /\
  map (fun op => fst (mix_compare (items_view pT peqb Nat.eqb) (item_eqb peqb Nat.eqb) op (rev dd_l) dd_ex)) [Ceq; Cne; Clt; Cgt; Cle; Cge]
  = [Ok true; Ok false; Ok false; Ok false; Ok true; Ok true].
Proof.
  split; [apply pT_class|]. split; [split; intros *; rewrite ?Nat.eqb_eq; congruence|]. split; [apply dd_ex_reach|].
  split; [apply dd_ex_shows|]. split; [cbn; intuition (subst; reflexivity)|].
  vm_compute. repeat match goal with |- _ /\ _ => split end; reflexivity.
Qed.

(** C69: [sd.keys().index(k, start, stop)] is the first position of an equal key in that window, or
    [ValueError]; [count] is the number of equal keys.  The items stay as they are. *)
Theorem C69_keys_positions : forall S A B K (T : listcls S A K) ltb eqb (veqb : B -> B -> bool) fref dflt s l k start stop,
  list_class T ltb eqb fref dflt -> sd_reach T eqb veqb s -> sd_shows T eqb s l ->
  (exists r s', seq_index (keys_view T eqb) eqb k start stop s = (r, s') /\ sd_reach T eqb veqb s' /\ sd_shows T eqb s' l /\
     first_index eqb k start stop (map fst l) r) /\
  seq_count (keys_view T eqb) eqb k s = (Ok (length (filter (fun x => eqb x k) (map fst l))), s).
Proof. exact c69_keys. Qed.
Print Assumptions C69_keys_positions.

Example C69_keys_case : list_class kT (by_key (@fst nat nat) Nat.ltb) pairb (fwd_keyed (@fst nat nat) Nat.ltb pairb) 2 /\
  sd_reach kT pairb Nat.eqb kdd_ex /\ sd_shows kT pairb kdd_ex kdd_l /\
  fst (seq_index (keys_view kT pairb) pairb (3, 5) 0 None kdd_ex) = Ok 4 /\
  fst (seq_index (keys_view kT pairb) pairb (3, 5) (-3) (Some (-2)%Z) kdd_ex) = Ok 4 /\
  fst (seq_index (keys_view kT pairb) pairb (3, 5) (-2) None kdd_ex) = Err ValueError /\
  fst (seq_index (keys_view kT pairb) pairb (3, 5) 0 (Some 4%Z) kdd_ex) = Err ValueError /\
  fst (seq_count (keys_view kT pairb) pairb (3, 5) kdd_ex) = Ok 1 /\ fst (seq_count (keys_view kT pairb) pairb (3, 9) kdd_ex) = Ok 0.
Proof.
  split; [apply kT_class|]. split; [apply kdd_ex_reach|]. split; [apply kdd_ex_shows|]. vm_compute. repeat match goal with |- _ /\ _ => split end; reflexivity.
Qed.

(** C69 for [sd.items()]. *)
Theorem C69_items_positions : forall S A B K (T : listcls S A K) ltb eqb (veqb : B -> B -> bool) fref dflt s l p start stop,
  list_class T ltb eqb fref dflt -> sd_reach T eqb veqb s -> sd_shows T eqb s l ->
  let eqp := item_eqb eqb veqb in
  (exists r s', seq_index (items_view T eqb veqb) eqp p start stop s = (r, s') /\ sd_reach T eqb veqb s' /\ sd_shows T eqb s' l /\
     first_index eqp p start stop l r) /\
  seq_count (items_view T eqb veqb) eqp p s = (Ok (length (filter (fun x => eqp x p) l)), s).
Proof. exact c69_items. Qed.
Print Assumptions C69_items_positions.

Example C69_items_case : list_class pT pltb peqb (fwd_plain pltb peqb) 2 /\ sd_reach pT peqb Nat.eqb dd_ex /\ sd_shows pT peqb dd_ex dd_l /\
  fst (seq_index (items_view pT peqb Nat.eqb) (item_eqb peqb Nat.eqb) ((8, 8), 80) 2 None dd_ex) = Ok 5 /\
  fst (seq_index (items_view pT peqb Nat.eqb) (item_eqb peqb Nat.eqb) ((8, 8), 81) 2 None dd_ex) = Err ValueError /\
  fst (seq_count (items_view pT peqb Nat.eqb) (item_eqb peqb Nat.eqb) ((8, 8), 80) dd_ex) = Ok 1.
Proof.
  split; [apply pT_class|]. split; [apply dd_ex_reach|]. split; [apply dd_ex_shows|]. vm_compute. repeat match goal with |- _ /\ _ => split end; reflexivity.
Qed.

(** C69 for [sd.values()], where a value may occur several times. *)
Theorem C69_values_positions : forall S A B K (T : listcls S A K) ltb eqb (veqb : B -> B -> bool) fref dflt s l v start stop,
  list_class T ltb eqb fref dflt -> sd_reach T eqb veqb s -> sd_shows T eqb s l ->
  (exists r s', seq_index (values_view T eqb veqb) veqb v start stop s = (r, s') /\ sd_reach T eqb veqb s' /\ sd_shows T eqb s' l /\
     first_index veqb v start stop (map snd l) r) /\
  seq_count (values_view T eqb veqb) veqb v s = (Ok (length (filter (fun x => veqb x v) (map snd l))), s).
Proof. exact c69_values. Qed.
Print Assumptions C69_values_positions.

Example C69_values_case : list_class pT pltb peqb (fwd_plain pltb peqb) 2 /\ sd_reach pT peqb Nat.eqb rep_ex /\ sd_shows pT peqb rep_ex rep_l /\
  fst (seq_index (values_view pT peqb Nat.eqb) Nat.eqb 7 0 None rep_ex) = Ok 1 /\
  fst (seq_index (values_view pT peqb Nat.eqb) Nat.eqb 7 (-4) (Some 100%Z) rep_ex) = Ok 2 /\
  fst (seq_index (values_view pT peqb Nat.eqb) Nat.eqb 5 0 (Some (-1)%Z) rep_ex) = Err ValueError /\
  fst (seq_count (values_view pT peqb Nat.eqb) Nat.eqb 7 rep_ex) = Ok 4.
Proof.
  split; [apply pT_class|]. split; [apply rep_reach|]. split; [apply rep_shows|]. vm_compute. repeat match goal with |- _ /\ _ => split end; reflexivity.
Qed.

(** C70, refuted: the result of a set operator on [sd.keys()] need not be in the order of the dict: the
    key function is dropped.  Witness: the keys 1 and 2 in descending order, [sd.keys() | []]. *)
Theorem C70_view_order_refuted : ~ (forall S A B K KN (T : listcls S A K) ltb eqb (veqb : B -> B -> bool) fref dflt s l nltb ndflt ord op t a r lr,
  list_class T ltb eqb fref dflt -> sd_reach T eqb veqb s -> sd_shows T eqb s l ->
  TotalOrder nltb eqb -> 1 <= ndflt -> any_order ord ->
  let N := plain (K:=KN) (total2 nltb) (total2 eqb) ndflt in
  mix_op (keys_view T eqb) N eqb ord op t a s = (Ok r, s) -> ss_shows N r lr -> sorted ltb lr).
Proof. exact c70_keys_order_refuted. Qed.
Print Assumptions C70_view_order_refuted.



(** C70, refuted for [other - ss] as well: [SortedSet.__rsub__] is the inherited one. *)
Theorem C70_rsub_order_refuted : ~ (forall S V K KN (T : listcls S V K) ltb eqb fref dflt ord s l nltb ndflt t a r lr,
  list_class T ltb eqb fref dflt -> any_order ord -> ss_reach T eqb ord s -> ss_shows T s l ->
  TotalOrder nltb eqb -> 1 <= ndflt ->
  let N := plain (K:=KN) (total2 nltb) (total2 eqb) ndflt in
  mix_rsub (set_view T eqb) N eqb ord t a s = (Ok r, s) -> ss_shows N r lr -> sorted ltb lr).
Proof. exact c70_rsub_order_refuted. Qed.
Print Assumptions C70_rsub_order_refuted.



(** C70: what is true: without a key function the result is in the order of the dict.  Missing for the
    full statement (see [C70_view_order_refuted]): dicts with a key function. *)
Theorem C70_view_order_partial : forall A B K KN ltb eqb (veqb : B -> B -> bool) dflt (s : sdict (core A A) A B) l ndflt ord op t a,
  TotalOrder ltb eqb -> 1 <= dflt -> 1 <= ndflt -> any_order ord ->
  let T := plain (K:=K) (total2 ltb) (total2 eqb) dflt in let N := plain (K:=KN) (total2 ltb) (total2 eqb) ndflt in
  sd_reach T eqb veqb s -> sd_shows T eqb s l ->
  exists r lr, mix_op (keys_view T eqb) N eqb ord op t a s = (Ok r, s) /\ ss_shows N r lr /\ sorted ltb (map fst l) /\ sorted ltb lr.
Proof. exact c70_keys_order_partial. Qed.
Print Assumptions C70_view_order_partial.

Example C70_partial_case : TotalOrder pltb peqb /\ 1 <= 2 /\ any_order flip /\ sd_reach pT peqb Nat.eqb dd_ex /\ sd_shows pT peqb dd_ex dd_l /\
  set_list pT (mix_op (keys_view pT peqb) pT peqb flip VXor 0 (AIter [(30, 0); (0, 0); (2, 2)]) dd_ex) =
  Ok [(0, 0); (1, 1); (3, 1); (4, 0); (5, 0); (8, 0); (9, 0); (22, 0); (30, 0)].
Proof.
  split; [apply pair_total|]. split; [lia|]. split; [apply flip_order|]. split; [apply dd_ex_reach|]. split; [apply dd_ex_shows|].
  vm_compute. reflexivity.
Qed.

(** C71: [other - ss] is a SortedSet without key function whose members are those of [other] that [ss]
    does not have, in natural order; [ss] is unchanged. *)
Theorem C71_set_rsub : forall S V K KN (T : listcls S V K) ltb eqb fref dflt ord s l nltb ndflt t a,
  list_class T ltb eqb fref dflt -> any_order ord -> ss_reach T eqb ord s -> ss_shows T s l ->
  TotalOrder nltb eqb -> 1 <= ndflt ->
  let N := plain (K:=KN) (total2 nltb) (total2 eqb) ndflt in
  exists r lr, mix_rsub (set_view T eqb) N eqb ord t a s = (Ok r, s) /\ ss_reach N eqb ord r /\ ss_shows N r lr /\
    sorted nltb lr /\ distinct eqb lr /\
    (forall x, member eqb x lr <-> member eqb x (items a) /\ ~ member eqb x l) /\
    (forall x, In x lr -> In x (items a)).
Proof. exact c71_rsub. Qed.
Print Assumptions C71_set_rsub.

Example C71_case : list_class kT (by_key (@fst nat nat) Nat.ltb) pairb (fwd_keyed (@fst nat nat) Nat.ltb pairb) 2 /\ any_order flip /\
  ss_reach kT pairb flip kss_ex /\ ss_shows kT kss_ex kss_l /\ TotalOrder tupb pairb /\ 1 <= 2 /\
  set_list tupN (mix_rsub (set_view kT pairb) tupN pairb flip 0 (AIter [(9, 9); (3, 9); (3, 0); (0, 0); (7, 0); (3, 4)]) kss_ex) =
  Ok [(0, 0); (3, 4); (3, 9); (9, 9)].
Proof.
  split; [apply kT_class|]. split; [apply flip_order|]. split; [apply kss_ex_reach|]. split; [apply kss_ex_shows|].
  split; [apply tup_total|]. split; [lia|]. vm_compute. reflexivity.
Qed.

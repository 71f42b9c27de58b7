(** * Property theorems: the positional index with another logarithm (C66) *)
From Verif Require Import PyBase Model Spec History Reach Concrete LogSpec ConcreteLog LogProps.

(** C66: with the exact logarithm [build_index_log] is the [_build_index] of the model. *)
Theorem C66_same_log : forall V K (c : core V K), build_index_log Nat.log2 c = build_index c.
Proof. exact c66_same_log. Qed.
Print Assumptions C66_same_log.

Example C66_same_log_case : fst (build_index_log Nat.log2 lg_c) = Ok tt /\
  index (snd (build_index_log Nat.log2 lg_c)) = [12; 8; 4; 4; 4; 4; 0; 2; 2; 2; 2; 2; 2].
Proof. split; reflexivity. Qed.

(** C66: whatever logarithm is used each time the positional index is built, provided it does not fall
    short, a SortedList behaves as the reference sorted list in every later history. *)
Theorem C66_list : forall V (ltb eqb : V -> V -> bool) dflt c,
  TotalOrder ltb eqb -> 1 <= dflt -> log_reach ltb eqb dflt c ->
  exists l, shows c l /\ sorted ltb l /\
    forall ops, Forall lop_ok ops -> exists c',
      sl_run (total2 ltb) (total2 eqb) dflt ops c = (fst (sp_run ltb eqb ltb ops l), c') /\
      shows c' (snd (sp_run ltb eqb ltb ops l)).
Proof. exact c66_list. Qed.
Print Assumptions C66_list.

Example C66_list_case : TotalOrder Nat.ltb Nat.eqb /\ 1 <= 2 /\ log_reach Nat.ltb Nat.eqb 2 lg_big /\
  length (index lg_big) = 21 /\ shows lg_big [0; 1; 2; 3; 4; 5; 6; 7; 8; 9; 10; 11] /\
  map (fun i => fst (getitem_int i lg_big)) [0; 3; 5; -2]%Z = [Ok 0; Ok 3; Ok 5; Ok 10] /\
  (* a logarithm that falls short by one *)
  map (fun i => fst (getitem_int i (snd (build_index_log (fun n => Nat.log2 n - 1) lg_c)))) [0; 3; 5; 8]%Z <> [Ok 0; Ok 3; Ok 5; Ok 8].
Proof.
  split; [exact nat_total|]. split; [lia|]. split; [exact lg_big_reach|]. vm_compute.
  repeat match goal with |- _ /\ _ => split end; congruence.
Qed.

(** C66 for SortedKeyList. *)
Theorem C66_keylist : forall V K (key : V -> K) (kltb keqb : K -> K -> bool) (vltb eqb : V -> V -> bool) dflt s,
  TotalOrder kltb keqb -> EqCompat (by_key key kltb) eqb -> 1 <= dflt ->
  log_kreach key kltb keqb vltb eqb dflt s ->
  exists l, kshows s l /\ sorted (by_key key kltb) l /\
    forall ops, Forall kop_ok ops -> Forall (comparable vltb eqb) ops -> exists s',
      skl_run (total2 vltb) (total2 eqb) (total2 kltb) (total2 keqb) (total1 key) dflt ops s
        = (fst (sp_krun eqb vltb key kltb ops l), s') /\
      kshows s' (snd (sp_krun eqb vltb key kltb ops l)).
Proof. exact c66_keylist. Qed.
Print Assumptions C66_keylist.

Example C66_keylist_case : TotalOrder Nat.ltb Nat.eqb /\ EqCompat (by_key (fun v => v / 2) Nat.ltb) Nat.eqb /\ 1 <= 2 /\
  log_kreach (fun v => v / 2) Nat.ltb Nat.eqb Nat.ltb Nat.eqb 2 lg_kbig /\
  fst (getitem_int 5 (kc lg_kbig)) = Ok 5 /\ length (index (kc lg_kbig)) = 21.
Proof.
  split; [exact nat_total|]. split; [intros x y H; apply Nat.eqb_eq in H; subst y; unfold by_key; split; apply Nat.ltb_irrefl|].
  split; [lia|]. split; [exact lg_kbig_reach|]. split; reflexivity.
Qed.

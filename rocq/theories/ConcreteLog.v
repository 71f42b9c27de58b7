(** * A list whose positional index was built with a logarithm that is too large *)
From Verif Require Import PyBase Model Spec History Reach Concrete LogSpec.

Definition lg_c : core nat nat := snd (sl_step (total2 Nat.ltb) (total2 Nat.eqb) 2 (LUpdate (seq 0 12)) (sl_init 2)).
Definition lg_plus (n : nat) : nat := S (Nat.log2 n).
Definition lg_big : core nat nat := snd (build_index_log lg_plus lg_c).
Lemma lg_plus_enough : log_enough lg_plus.
Proof. intros n Hn. unfold lg_plus. rewrite Nat.add_1_r. pose proof (Nat.log2_spec n Hn). cbn [Nat.pow] in *. lia. Qed.
Lemma lg_big_reach : log_reach Nat.ltb Nat.eqb 2 lg_big.
Proof. apply lr_build; [|exact lg_plus_enough|reflexivity|vm_compute; lia]. apply lr_step; [constructor|exact I]. Qed.

Definition lg_k : skl nat nat := snd (skl_step (total2 Nat.ltb) (total2 Nat.eqb) (total2 Nat.ltb) (total2 Nat.eqb)
  (total1 (fun v => v / 2)) 2 (KList (LUpdate (seq 0 12))) (skl_init 2)).
Definition lg_kbig : skl nat nat := set_kc (snd (build_index_log lg_plus (kc lg_k))) lg_k.
Lemma lg_kbig_reach : log_kreach (fun v => v / 2) Nat.ltb Nat.eqb Nat.ltb Nat.eqb 2 lg_kbig.
Proof. apply lk_build; [|exact lg_plus_enough|reflexivity|vm_compute; lia]. apply lk_step; [constructor|exact I]. Qed.

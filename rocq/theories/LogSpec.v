(** * The positional index with another logarithm: vocabulary for C66 *)
From Verif Require Import PyBase Model Spec History.
Local Set Implicit Arguments.

(** [SortedList._build_index] (sortedlist.py:626-692) with [lg n] for [int(log(n, 2))], which Python
    computes in floating point. *)
Definition build_index_log {V K} (lg : nat -> nat) : M (core V K) unit :=
  modifyR (fun c =>
    let row0 := map (@length V) (lists c) in
    if length row0 =? 1 then Ok (set_offset 0 (set_index row0 c))
    else
      let! row1 :=
        (if Nat.odd (length row0)
         then let! x := getlast row0 in Ok (pair_sums row0 ++ [x])
         else Ok (pair_sums row0)) in
      if length row1 =? 1 then Ok (set_offset 1 (set_index (row1 ++ row0) c))
      else if length row1 =? 0 then Err ValueError
      else
        let size := 2 ^ (lg (length row1 - 1) + 1) in
        let! p := build_index_sized size row0 row1 in
        Ok (set_offset (snd p) (set_index (index c ++ fst p) c))).

(** [lg] never falls short of the integer part of the logarithm; it may be too large. *)
Definition log_enough (lg : nat -> nat) : Prop := forall n, 1 <= n -> n < 2 ^ (lg n + 1).

(** States reached by a history in which an absent index may at any time be built with such a
    logarithm, a different one each time. *)
Inductive log_reach {V} (ltb eqb : V -> V -> bool) (dflt : nat) : core V V -> Prop :=
| lr_init : log_reach ltb eqb dflt (sl_init dflt)
| lr_step : forall o c, log_reach ltb eqb dflt c -> lop_ok o ->
    log_reach ltb eqb dflt (snd (sl_step (total2 ltb) (total2 eqb) dflt o c))
| lr_build : forall lg c, log_reach ltb eqb dflt c -> log_enough lg -> index c = [] -> 2 <= length (lists c) ->
    log_reach ltb eqb dflt (snd (build_index_log lg c)).

Inductive log_kreach {V K} (key : V -> K) (kltb keqb : K -> K -> bool) (vltb eqb : V -> V -> bool) (dflt : nat) :
  skl V K -> Prop :=
| lk_init : log_kreach key kltb keqb vltb eqb dflt (skl_init dflt)
| lk_step : forall o s, log_kreach key kltb keqb vltb eqb dflt s -> kop_ok o ->
    log_kreach key kltb keqb vltb eqb dflt
      (snd (skl_step (total2 vltb) (total2 eqb) (total2 kltb) (total2 keqb) (total1 key) dflt o s))
| lk_build : forall lg s, log_kreach key kltb keqb vltb eqb dflt s -> log_enough lg -> index (kc s) = [] ->
    2 <= length (lists (kc s)) ->
    log_kreach key kltb keqb vltb eqb dflt (set_kc (snd (build_index_log lg (kc s))) s).

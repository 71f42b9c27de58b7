(** * C128: the calls of user code made by a SortedKeyList (proofs in KeyCallProps.v) *)
From Verif Require Import PyBase Model Spec History Reach ModelEffect EffectSpec EffectSameSpec EffectProps EffectSameProps KeyCallSpec KeyCallProps Concrete ConcreteCompare.

(** C128: [in], [discard], [remove], [count] and [index] of [v] call the key function at most once, on [v]; they compare keys with [<] at most
    log2 (length) + 6 times; with [t] stored values of the same key, they compare keys with [==] at most [t + 1] times and values with [==] at most
    [t] times, and only [v] with stored values of the same key.  In particular no [==] of values with different keys is ever asked. *)
Theorem C128_lookup : forall V K (srt : sorting (list (ucall V K))) (key : V -> K) (kltb keqb : K -> K -> bool) (vltb eqb : V -> V -> bool) dflt s l o v,
  TotalOrder kltb keqb -> 1 <= dflt -> skl_reach key kltb keqb vltb eqb dflt s -> kshows s l -> looks o = Some v ->
  let t := count (fun x => keqb (key x) (key v)) l in
  within (trace srt key kltb keqb vltb eqb dflt o s) 1 (Nat.log2 (length l) + 6) (t + 1) t /\
  Forall (about key keqb l v) (trace srt key kltb keqb vltb eqb dflt o s).
Proof. exact c128_lookup. Qed.
Print Assumptions C128_lookup.

Example C128_lookup_case :
  let s := nkey [25; 13; 38; 23; 11; 33] in let trace o := trace by_insertion last_digit Nat.ltb Nat.eqb Nat.ltb Nat.eqb 2 o s in
  skl_reach last_digit Nat.ltb Nat.eqb Nat.ltb Nat.eqb 2 s /\ kshows s [11; 13; 23; 33; 25; 38] /\ TotalOrder Nat.ltb Nat.eqb /\
  trace (KList (LContains 43)) = [UKey 43; ULess 3 3; ULess 3 3; ULess 3 3; ULess 1 3; USame 3 3; UEq 13 43; USame 3 3; UEq 23 43; USame 3 3; UEq 33 43; USame 5 3].
Proof. split; [apply nkey_reach|]. split; [reflexivity|]. split; [apply nat_total|]. vm_compute. repeat match goal with |- _ /\ _ => split end; reflexivity. Qed.

(** C128: [add], the bisections and [irange], given the values [vs] or the keys [ks], call the key function once for each of [vs] and compare
    keys with [<] at most log2 (length) + 6 times for each place they look for; they never use [==]. *)
Theorem C128_place : forall V K (srt : sorting (list (ucall V K))) (key : V -> K) (kltb keqb : K -> K -> bool) (vltb eqb : V -> V -> bool) dflt s l o vs ks,
  TotalOrder kltb keqb -> 1 <= dflt -> skl_reach key kltb keqb vltb eqb dflt s -> kshows s l -> places o = Some (vs, ks) ->
  within (trace srt key kltb keqb vltb eqb dflt o s) (length vs) ((length vs + length ks) * (Nat.log2 (length l) + 6)) 0 0 /\
  Forall (between_keys key l vs ks) (trace srt key kltb keqb vltb eqb dflt o s).
Proof. exact c128_place. Qed.
Print Assumptions C128_place.

Example C128_place_case :
  let s := nkey [25; 13; 38; 23; 11; 33] in let trace o := trace by_insertion last_digit Nat.ltb Nat.eqb Nat.ltb Nat.eqb 2 o s in
  skl_reach last_digit Nat.ltb Nat.eqb Nat.ltb Nat.eqb 2 s /\ kshows s [11; 13; 23; 33; 25; 38] /\ TotalOrder Nat.ltb Nat.eqb /\
  trace (KList (LIRange (Some 12) (Some 35) true false false)) =
    [UKey 12; UKey 35; ULess 3 2; ULess 3 2; ULess 3 2; ULess 1 2; ULess 3 5; ULess 8 5; ULess 8 5; ULess 5 5] /\
  places (KList (LIRange (Some 12) (Some 35) true false false) : kop nat nat) = Some ([12; 35], []).
Proof. split; [apply nkey_reach|]. split; [reflexivity|]. split; [apply nat_total|]. vm_compute. repeat match goal with |- _ /\ _ => split end; reflexivity. Qed.

(** C128: reading by index or slice, [len], iteration, [islice], [pop], [del] of an index and [clear] call no user code. *)
Theorem C128_silent : forall V K (srt : sorting (list (ucall V K))) (key : V -> K) (kltb keqb : K -> K -> bool) (vltb eqb : V -> V -> bool) dflt s o,
  silent o -> trace srt key kltb keqb vltb eqb dflt o s = [].
Proof. exact c128_silent. Qed.
Print Assumptions C128_silent.

Example C128_silent_case :
  let s := nkey [25; 13; 38; 23; 11; 33] in let trace o := trace by_insertion last_digit Nat.ltb Nat.eqb Nat.ltb Nat.eqb 2 o s in
  silent (KList (LPop 3%Z) : kop nat nat) /\ trace (KList (LPop 3%Z)) = [] /\ trace (KList (LAdd 43)) <> [].
Proof. split; [exact I|]. split; [reflexivity|]. vm_compute. discriminate. Qed.

(** C128: with the calls written down, every operation answers and acts as it does in Model.v; so the calls counted are those of the operations
    which the other properties are about. *)
Theorem C128_answers : forall V K (srt : sorting (list (ucall V K))) (key : V -> K) (kltb keqb : K -> K -> bool) (vltb eqb : V -> V -> bool) dflt s o tr,
  sorts_told srt -> TotalOrder kltb keqb -> 1 <= dflt -> skl_reach key kltb keqb vltb eqb dflt s -> kop_ok o ->
  exists tr', noted_step srt key kltb keqb vltb eqb dflt o (tr, s) =
    (fst (skl_do key kltb keqb vltb eqb dflt o s), (tr', snd (skl_do key kltb keqb vltb eqb dflt o s))).
Proof. exact c128_answers. Qed.
Print Assumptions C128_answers.

Example C128_answers_case :
  let s := nkey [25; 13; 38; 23; 11; 33] in
  sorts_told (@by_insertion (list (ucall nat nat))) /\ TotalOrder Nat.ltb Nat.eqb /\ skl_reach last_digit Nat.ltb Nat.eqb Nat.ltb Nat.eqb 2 s /\
  fst (noted_step by_insertion last_digit Nat.ltb Nat.eqb Nat.ltb Nat.eqb 2 (KList (LIndex 33 None None)) ([], s)) = RNat 3.
Proof. split; [apply by_insertion_told|]. split; [apply nat_total|]. split; [apply nkey_reach|]. reflexivity. Qed.

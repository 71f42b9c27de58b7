(** * Size of the internal structure: vocabulary for C72 and C73 *)
From Verif Require Import PyBase Model.
Local Set Implicit Arguments.

(** The internal lists of a container with [n] values and load factor [ld]: none is empty, none is
    longer than twice the load factor, and none but the last is shorter than half of it, so that there
    are few of them; the positional index, if present, has at most three entries per internal list. *)
Definition balanced {V K} (c : core V K) (n : nat) : Prop :=
  Forall (fun l => 1 <= length l <= 2 * load c) (lists c) /\
  Forall (fun l => load c / 2 <= length l) (removelast (lists c)) /\
  (length (lists c) - 1) * (load c / 2) <= n /\
  length (lists c) <= n /\
  length (maxes c) = length (lists c) /\
  length (index c) <= 3 * length (lists c).

(** The loops over the positional index stop after at most [k] iterations: with room for [k] of them
    they give the same result as with the room the model allows. *)
Definition find_within (k : nat) (ix : list nat) (idx : nat) : Prop :=
  exists r, pos_loop (S k) ix 0 1 idx = Ok r /\ pos_loop (S (length ix)) ix 0 1 idx = Ok r.
Definition rank_within (k : nat) (ix : list nat) (leaf : nat) : Prop :=
  exists r, loc_loop (S k) ix leaf 0 = Ok r /\ loc_loop (S leaf) ix leaf 0 = Ok r.
Definition walk_within (k : nat) (ix : list nat) (leaf : nat) : Prop :=
  forall f, walk_up f (S k) leaf ix = walk_up f (S leaf) leaf ix.

(** All three, for a container with [n] values, once its index has been built. *)
Definition index_steps {V K} (c : core V K) (n k : nat) : Prop :=
  let c' := snd (ensure_index c) in
  lists c' = lists c /\
  (forall idx, idx < n -> find_within k (index c') idx) /\
  (forall pos, pos < length (lists c) -> rank_within k (index c') (pos + offset c')) /\
  (forall pos, pos < length (lists c) -> walk_within k (index c') (offset c' + pos)).

(** * Comparisons that read the list *)
From Verif Require Import PyBase Model Spec History Reach.
Local Set Implicit Arguments.

(** [cmp x y] answers [ans x y] after some queries of the list, whenever the list is one that public operations make and has contents
    [m].  Nothing is said about [cmp] in any other state of the list. *)
Definition reads {V} (ltb eqb : V -> V -> bool) (dflt : nat) (m : list V) (cmp : V -> V -> M (core V V) bool) (ans : V -> V -> bool) : Prop :=
  forall c x y, sl_reach ltb eqb dflt c -> shows c m ->
    exists qs, Forall query qs /\ cmp x y c = (Ok (ans x y), snd (sl_run (total2 ltb) (total2 eqb) dflt qs c)).

(** The contents of the list when an operation on a list with contents [l] compares. *)
Definition seen {V} (ltb : V -> V -> bool) (o : lop V) (l m : list V) : Prop :=
  match o with
  | LUpdate it | LIAdd it => exists k, m = fold_left (fun l v => sp_add ltb v l) (firstn k (sp_sort ltb it)) l
  | LDelSlice _ | LReset _ | LIMul _ => m = []
  | _ => m = l
  end.

(** [update] of a list that is not much longer than what is added. *)
Definition rebuilds {V} (o : lop V) (l : list V) : bool :=
  match o with LUpdate it | LIAdd it => negb (is_nil l) && (length l <=? length it * 4) | _ => false end.

(** The operation, with comparisons that read the list, does what it does with comparisons that answer [ltb] and [eqb] and read nothing. *)
Definition as_without {V} (ltb eqb : V -> V -> bool) (dflt : nat) (step : lop V -> core V V -> out V * core V V) (o : lop V) (c : core V V) : Prop :=
  exists r c1 c2 m, sl_do ltb eqb dflt o c = (r, c1) /\ shows c1 m /\
    step o c = (r, c2) /\ sl_reach ltb eqb dflt c2 /\ shows c2 m.

(** Two comparisons of numbers that read the list.  [nosy] asks for its length, its first value and where [x] belongs, and then compares;
    [wary] counts the list and fails an assertion if it has not the length it says. *)
Definition nosy (f : nat -> nat -> bool) (x y : nat) : M (core nat nat) bool := fun c =>
  (Ok (f x y), snd (sl_run (total2 Nat.ltb) (total2 Nat.eqb) 2 [LLen; LGet 0; LBisectLeft x] c)).
Definition wary (f : nat -> nat -> bool) (x y : nat) : M (core nat nat) bool :=
  n <- length_of ;; xs <- iter ;; if n =? length xs then ret (f x y) else raise AssertionError.

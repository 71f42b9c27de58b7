(** * Reachable states and what a caller sees of them *)
From Verif Require Import PyBase Model Spec History.
Local Set Implicit Arguments.

(** [list(obj) == l] *)
Definition shows {V K} (c : core V K) (l : list V) : Prop := iter c = (Ok l, c).
Definition kshows {V K} (s : skl V K) (l : list V) : Prop := shows (kc s) l.

(** [c] is a [SortedList] over the order [ltb], class attribute
    [DEFAULT_LOAD_FACTOR = dflt], that some history of public operations on a new
    object produces. *)
Definition sl_reach {V} (ltb eqb : V -> V -> bool) (dflt : nat) (c : core V V) : Prop :=
  exists ops, Forall lop_ok ops /\
    c = snd (sl_run (total2 ltb) (total2 eqb) dflt ops (sl_init dflt)).

(** The same for a [SortedKeyList] with key function [key]. *)
Definition skl_reach {V K} (key : V -> K) (kltb keqb : K -> K -> bool) (vltb eqb : V -> V -> bool)
    (dflt : nat) (s : skl V K) : Prop :=
  exists ops, Forall kop_ok ops /\
    s = snd (skl_run (total2 vltb) (total2 eqb) (total2 kltb) (total2 keqb) (total1 key) dflt ops
               (skl_init dflt)).

(** One public operation under the given total comparisons. *)
Definition sl_do {V} (ltb eqb : V -> V -> bool) (dflt : nat) (o : lop V) (c : core V V) :=
  sl_step (total2 ltb) (total2 eqb) dflt o c.
Definition skl_do {V K} (key : V -> K) (kltb keqb : K -> K -> bool) (vltb eqb : V -> V -> bool)
    (dflt : nat) (o : kop V K) (s : skl V K) :=
  skl_step (total2 vltb) (total2 eqb) (total2 kltb) (total2 keqb) (total1 key) dflt o s.

(** Operations that only read. *)
Definition query {V} (o : lop V) : Prop :=
  match o with
  | LContains _ | LGet _ | LSlice _ | LLen | LIter | LReversed | LBisectLeft _ | LBisectRight _
  | LCount _ | LIndex _ _ _ | LIRange _ _ _ _ _ | LISlice _ _ _ | LCompare _ _ => True
  | _ => False
  end.

(** The load factors an operation sets. *)
Definition loads_from {V} (n : nat) (o : lop V) : Prop :=
  match o with LReset ld => n <= ld | _ => True end.
Definition kloads_from {V K} (n : nat) (o : kop V K) : Prop :=
  match o with KList o => loads_from n o | _ => True end.

(** A history with the load factor tuning removed, and the matching outcomes. *)
Definition is_reset {V} (o : lop V) : bool := match o with LReset _ => true | _ => false end.
Definition no_resets {V} (ops : list (lop V)) : list (lop V) := filter (fun o => negb (is_reset o)) ops.
Fixpoint outs_no_resets {V} (ops : list (lop V)) (rs : list (out V)) : list (out V) :=
  match ops, rs with
  | o :: ops, r :: rs => if is_reset o then outs_no_resets ops rs else r :: outs_no_resets ops rs
  | _, _ => []
  end.

(** The exceptions each operation documents. *)
Definition documented {V} (o : lop V) (e : exn) : Prop :=
  match o with
  | LRemove _ | LIndex _ _ _ => e = ValueError
  | LGet _ | LDel _ | LPop _ => e = IndexError
  | LSlice sl | LDelSlice sl => e = ValueError /\ s_step sl = Some 0%Z
  | LUnsupported => e = NotImplementedError
  | _ => False
  end.
Definition kdocumented {V K} (o : kop V K) (e : exn) : Prop :=
  match o with KList o => documented o e | _ => False end.

(** [l] comes before [o] in the lexicographic order of sequences: they agree on
    the first [n] positions, and then [l] ends or has the smaller value. *)
Definition lex_before {V} (ltb eqb : V -> V -> bool) (l o : list V) : Prop :=
  exists n,
    (forall i, i < n -> exists x y, nth_error l i = Some x /\ nth_error o i = Some y /\ eqb x y = true) /\
    ((length l = n /\ n < length o) \/
     exists x y, nth_error l n = Some x /\ nth_error o n = Some y /\ ltb x y = true).

(** [l] and [o] have the same length and equal values. *)
Definition all_equal {V} (eqb : V -> V -> bool) (l o : list V) : Prop :=
  Forall2 (fun x y => eqb x y = true) l o.

(** What each comparison operator means. *)
Definition cmp_means {V} (ltb eqb : V -> V -> bool) (op : cmpop) (l o : list V) : Prop :=
  match op with
  | Ceq => all_equal eqb l o
  | Cne => ~ all_equal eqb l o
  | Clt => lex_before ltb eqb l o
  | Cgt => lex_before ltb eqb o l
  | Cle => lex_before ltb eqb l o \/ all_equal eqb l o
  | Cge => lex_before ltb eqb o l \/ all_equal eqb l o
  end.

(** Which positions a slice selects in a sequence of length [n], in the words
    of the Python reference: the slice of [s] from [i] to [j] with step [k] is
    the sequence of items with index [x = i + m*k] that lie before [j] (after
    [j] when [k] is negative); negative bounds count from the end, bounds are
    clipped to the sequence, missing bounds mean its ends. *)
Definition step_of (sl : slice) : Z := match s_step sl with None => 1%Z | Some k => k end.
Definition clip (k n i : Z) : Z :=
  let i := (if i <? 0 then i + n else i)%Z in
  (if k <? 0 then Z.max (-1) (Z.min i (n - 1)) else Z.max 0 (Z.min i n))%Z.
Definition first_of (sl : slice) (n : Z) : Z :=
  match s_start sl with
  | Some i => clip (step_of sl) n i
  | None => (if step_of sl <? 0 then n - 1 else 0)%Z
  end.
Definition end_of (sl : slice) (n : Z) : Z :=
  match s_stop sl with
  | Some j => clip (step_of sl) n j
  | None => (if step_of sl <? 0 then -1 else n)%Z
  end.
(** The [m]-th selected position, and whether it exists. *)
Definition pos_of (sl : slice) (n : Z) (m : nat) : Z := (first_of sl n + Z.of_nat m * step_of sl)%Z.
Definition pos_in (sl : slice) (n : Z) (m : nat) : Prop :=
  (if step_of sl <? 0 then end_of sl n < pos_of sl n m else pos_of sl n m < end_of sl n)%Z.

(** [x] is [l[sl]]. *)
Definition slice_is {V} (sl : slice) (l x : list V) : Prop :=
  let n := Z.of_nat (length l) in
  forall m, (pos_in sl n m -> exists v, nth_error l (Z.to_nat (pos_of sl n m)) = Some v /\ nth_error x m = Some v) /\
            (~ pos_in sl n m -> nth_error x m = None).

(** [l'] is [l] after [del l[sl]]. *)
Definition slice_deleted {V} (sl : slice) (l l' : list V) : Prop :=
  let n := Z.of_nat (length l) in
  exists sel : nat -> bool,
    (forall i, sel i = true <-> exists m, pos_in sl n m /\ pos_of sl n m = Z.of_nat i) /\
    l' = map snd (filter (fun p => negb (sel (fst p))) (combine (seq 0 (length l)) l)).

(** Comparing whole lists with [<], [>], [<=] or [>=] needs an order on the
    values themselves; [vltb] need not be one otherwise. *)
Definition comparable {V K} (vltb eqb : V -> V -> bool) (o : kop V K) : Prop :=
  match o with
  | KList (LCompare Ceq _) | KList (LCompare Cne _) => True
  | KList (LCompare _ _) => TotalOrder vltb eqb
  | _ => True
  end.

(** [a] is what remains of [b] after dropping some of its values. *)
Inductive subseq {V} : list V -> list V -> Prop :=
| subseq_nil : subseq [] []
| subseq_keep : forall x a b, subseq a b -> subseq (x :: a) (x :: b)
| subseq_drop : forall x a b, subseq a b -> subseq a (x :: b).

(** The values an operation brings in, oldest first; [l] is what was there. *)
Definition after_adding {V K} (o : kop V K) (l : list V) : list V :=
  match o with
  | KList (LAdd v) => l ++ [v]
  | KList (LUpdate it) | KList (LIAdd it) | KList (LPlus it) => l ++ it
  | KList (LIMul n) | KList (LMul n) => concat (repeat l (Z.to_nat n))
  | _ => l
  end.

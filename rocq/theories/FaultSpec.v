(** * What is guaranteed when comparisons raise or are not an order

    [loose] relates the contents [l] of a list before an operation, the observed
    outcome [r] and the contents [l'] afterwards, for comparisons, equality and
    key functions about which nothing is assumed: positional operations and
    [len] behave exactly as on a plain list, mutators change the multiset of
    values exactly as they should or (when a user supplied function raised [e],
    [raised e]) not at all, and queries change nothing. *)
From Verif Require Import PyBase Model Spec History.
From Coq Require Import Sorting.Permutation.
Local Set Implicit Arguments.

Section Loose.
  Context {V : Type}.
  (** Equality of values, and the exceptions user supplied functions raise. *)
  Variable eq : V -> V -> res bool.
  Variable raised : exn -> Prop.

  (** [l'] is [l] without one value that is equal to [v]. *)
  Definition one_less (v : V) (l l' : list V) : Prop :=
    exists a x b, l = a ++ x :: b /\ l' = a ++ b /\ eq x v = Ok true.

  (** Success with condition [P], or a user exception after which [Q] holds. *)
  Definition or_raised (r : out V) (P Q : Prop) : Prop :=
    (r = RUnit /\ P) \/ (exists e, r = RExn e /\ raised e /\ Q).

  (** A query: nothing changes and only user exceptions or [doc] escape. *)
  Definition quiet (doc : exn -> Prop) (r : out V) (l l' : list V) : Prop :=
    l' = l /\ forall e, r = RExn e -> raised e \/ doc e.

  Definition none (_ : V) (_ : V) : bool := false.
  (** Exactly as the reference list; used for operations that do not compare. *)
  Definition exact_ref (o : lop V) (r : out V) (l l' : list V) : Prop :=
    (r, l') = sp_step none none none o l.

  Definition loose (o : lop V) (l : list V) (r : out V) (l' : list V) : Prop :=
    match o with
    | LAdd v => or_raised r (Permutation l' (v :: l)) (l' = l)
    | LUpdate it | LIAdd it =>
        or_raised r (Permutation l' (l ++ it))
          (exists vs ws, Permutation l' (l ++ vs) /\ Permutation (vs ++ ws) it)
    | LDiscard v => or_raised r (l' = l \/ one_less v l l') (l' = l)
    | LRemove v => or_raised r (one_less v l l') (l' = l) \/ (r = RExn ValueError /\ l' = l)
    | LDelSlice sl =>
        match sp_del_slice sl l with
        | Ok l1 => or_raised r (Permutation l' l1) (l' = [])
        | Err e => r = RExn e /\ l' = l
        end
    | LReset _ => or_raised r (Permutation l' l) (l' = [])
    | LIMul n => or_raised r (Permutation l' (sp_mul n l)) (l' = [])
    | LCopy | LReduce => or_raised r (Permutation l' l) (l' = l)
    | LPlus it => or_raised r (Permutation l' (l ++ it)) (l' = l)
    | LMul n => or_raised r (Permutation l' (sp_mul n l)) (l' = l)
    | LContains _ => quiet (fun _ => False) r l l' /\ ((exists b, r = RBool b) \/ exists e, r = RExn e)
    | LBisectLeft _ | LBisectRight _ =>
        quiet (fun _ => False) r l l' /\ ((exists n, r = RNat n) \/ exists e, r = RExn e)
    | LCount _ =>
        (* with an inconsistent order Python returns a negative count where the
           model reports [Underflow] *)
        quiet (fun e => e = Underflow) r l l' /\ ((exists n, r = RNat n) \/ exists e, r = RExn e)
    | LIndex _ _ _ =>
        quiet (fun e => e = ValueError) r l l' /\ ((exists n, r = RNat n) \/ exists e, r = RExn e)
    | LIRange _ _ _ _ _ =>
        quiet (fun _ => False) r l l' /\ ((exists x, r = RList x) \/ exists e, r = RExn e)
    | LCompare _ _ => quiet (fun _ => False) r l l' /\ ((exists b, r = RBool b) \/ exists e, r = RExn e)
    | LClear | LGet _ | LSlice _ | LDel _ | LPop _ | LLen | LIter | LReversed | LISlice _ _ _
    | LUnsupported => exact_ref o r l l'
    end.

  (** A whole history. *)
  Fixpoint loose_run (ops : list (lop V)) (rs : list (out V)) (l l' : list V) : Prop :=
    match ops, rs with
    | [], [] => l' = l
    | o :: ops, r :: rs => exists l1, loose o l r l1 /\ loose_run ops rs l1 l'
    | _, _ => False
    end.
End Loose.

(** [update] and [+=] did not raise. *)
Definition update_fine {V} (o : lop V) (r : out V) : Prop :=
  match o, r with
  | LUpdate _, RExn _ | LIAdd _, RExn _ => False
  | _, _ => True
  end.

(** The operations for which an exception leaves no trace. *)
Definition atomic {V} (o : lop V) : Prop :=
  match o with
  | LUpdate _ | LIAdd _ | LDelSlice _ | LReset _ | LIMul _ => False
  | _ => True
  end.

(** The same for SortedKeyList. *)
Definition kloose {V K} (eq : V -> V -> res bool) (raised : exn -> Prop)
    (o : kop V K) (l : list V) (r : out V) (l' : list V) : Prop :=
  match o with
  | KList o => loose eq raised o l r l'
  | KBisectLeft _ | KBisectRight _ =>
      quiet raised (fun _ => False) r l l' /\ ((exists n, r = RNat n) \/ exists e, r = RExn e)
  | KIRange _ _ _ _ _ =>
      quiet raised (fun _ => False) r l l' /\ ((exists x, r = RList x) \/ exists e, r = RExn e)
  end.
Fixpoint kloose_run {V K} (eq : V -> V -> res bool) (raised : exn -> Prop)
    (ops : list (kop V K)) (rs : list (out V)) (l l' : list V) : Prop :=
  match ops, rs with
  | [], [] => l' = l
  | o :: ops, r :: rs => exists l1, kloose eq raised o l r l1 /\ kloose_run eq raised ops rs l1 l'
  | _, _ => False
  end.
Definition kupdate_fine {V K} (o : kop V K) (r : out V) : Prop :=
  match o with KList o => update_fine o r | _ => True end.
Definition katomic {V K} (o : kop V K) : Prop :=
  match o with KList o => atomic o | _ => True end.

(** [e] comes from a comparison. *)
Definition cmp_raises {V} (lt eq : V -> V -> res bool) (e : exn) : Prop :=
  (exists x y, lt x y = Err e) \/ exists x y, eq x y = Err e.

(** A history in which every operation sees its own comparisons: nothing is
    assumed of them, and they may change from one operation to the next (values
    are mutable, a comparison may start to fail). *)
Record wild (V : Type) : Type := mkwild {
  w_lt : V -> V -> res bool;
  w_eq : V -> V -> res bool;
  w_op : lop V }.
Definition wild_step {V} (dflt : nat) (w : wild V) (c : core V V) : out V * core V V :=
  sl_step (w_lt w) (w_eq w) dflt (w_op w) c.
Definition wild_run {V} (dflt : nat) := run (@wild_step V dflt).

(** [c] is a [SortedList] that such a history produces, provided no [update] or
    [+=] was interrupted by an exception. *)
Definition wild_reach {V} (dflt : nat) (c : core V V) : Prop :=
  exists ws : list (wild V), Forall (fun w => lop_ok (w_op w)) ws /\
    Forall2 update_fine (map (@w_op V) ws) (fst (wild_run dflt ws (sl_init dflt))) /\
    c = snd (wild_run dflt ws (sl_init dflt)).

(** The same for [SortedKeyList], whose key function must not change. *)
Record kwild (V K : Type) : Type := mkkwild {
  kw_vlt : V -> V -> res bool;
  kw_eq : V -> V -> res bool;
  kw_klt : K -> K -> res bool;
  kw_keq : K -> K -> res bool;
  kw_op : kop V K }.
Definition kwild_step {V K} (kf : V -> res K) (dflt : nat) (w : kwild V K) (s : skl V K) : out V * skl V K :=
  skl_step (kw_vlt w) (kw_eq w) (kw_klt w) (kw_keq w) kf dflt (kw_op w) s.
Definition kwild_run {V K} (kf : V -> res K) (dflt : nat) := run (@kwild_step V K kf dflt).
Definition kwild_reach {V K} (kf : V -> res K) (dflt : nat) (s : skl V K) : Prop :=
  exists ws : list (kwild V K), Forall (fun w => kop_ok (kw_op w)) ws /\
    Forall2 kupdate_fine (map (@kw_op V K) ws) (fst (kwild_run kf dflt ws (skl_init dflt))) /\
    s = snd (kwild_run kf dflt ws (skl_init dflt)).

(** [e] comes from a comparison or the key function. *)
Definition key_raises {V K} (vlt eq : V -> V -> res bool) (klt keq : K -> K -> res bool) (kf : V -> res K)
    (e : exn) : Prop :=
  (exists v, kf v = Err e) \/ (exists x y, klt x y = Err e) \/ (exists x y, keq x y = Err e) \/
  (exists x y, eq x y = Err e) \/ (exists x y, vlt x y = Err e).

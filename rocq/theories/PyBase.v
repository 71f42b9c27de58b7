(** * Python primitives used by sortedcontainers

    Exceptions as values, a state + exception monad, Python list operations,
    [slice.indices], [range], the [bisect] module and [sorted].
    These are builtins of Python: they are cited by the place where /repo uses
    them. *)
From Coq Require Export List Arith ZArith Bool Lia.
Export ListNotations.
Local Set Implicit Arguments.

(** ** Exceptions *)

(** Exception classes.  [Underflow] and [OutOfFuel] do not exist in Python: they
    mark, respectively, an internal integer of the model going below zero and a
    loop exceeding its fuel.  Theorems show that they never occur. *)
Inductive exn : Set :=
| IndexError | ValueError | KeyError | TypeError | AttributeError | NotImplementedError
| AssertionError | Underflow | OutOfFuel.

Inductive res (A : Type) : Type :=
| Ok (a : A)
| Err (e : exn).
Arguments Ok {A} a.
Arguments Err {A} e.

Definition rbind {A B} (m : res A) (k : A -> res B) : res B :=
  match m with Ok a => k a | Err e => Err e end.
Notation "'let!' x ':=' m 'in' k" := (rbind m (fun x => k))
  (at level 200, x binder, m at level 100, k at level 200, right associativity).

Fixpoint mapR {A B} (f : A -> res B) (l : list A) : res (list B) :=
  match l with
  | [] => Ok []
  | a :: t => let! b := f a in let! bs := mapR f t in Ok (b :: bs)
  end.

(** ** State + exception monad: the state reached when an exception is raised is
    kept, as in Python. *)
Definition M (S A : Type) : Type := S -> res A * S.

Definition ret {S A} (a : A) : M S A := fun s => (Ok a, s).
Definition raise {S A} (e : exn) : M S A := fun s => (Err e, s).
Definition bind {S A B} (m : M S A) (k : A -> M S B) : M S B :=
  fun s => match m s with
           | (Ok a, s') => k a s'
           | (Err e, s') => (Err e, s')
           end.
Definition get {S} : M S S := fun s => (Ok s, s).
Definition modify {S} (f : S -> S) : M S unit := fun s => (Ok tt, f s).
Definition liftr {S A} (r : res A) : M S A := fun s => (r, s).
(** Change the state by a computation that may raise; when it raises the state
    is unchanged. *)
Definition modifyR {S} (f : S -> res S) : M S unit :=
  fun s => match f s with Ok s' => (Ok tt, s') | Err e => (Err e, s) end.
(** Run a method of a component of the state. *)
Definition zoom {S T A} (g : S -> T) (p : T -> S -> S) (m : M T A) : M S A :=
  fun s => let (r, t) := m (g s) in (r, p t s).

Notation "x <- m ;; k" := (bind m (fun x => k))
  (at level 61, m at next level, right associativity).
Notation "m ;;; k" := (bind m (fun _ => k))
  (at level 61, right associativity).

Fixpoint mapM {S A B} (f : A -> M S B) (l : list A) : M S (list B) :=
  match l with
  | [] => ret []
  | a :: t => b <- f a ;; bs <- mapM f t ;; ret (b :: bs)
  end.

Fixpoint forM {S A} (f : A -> M S unit) (l : list A) : M S unit :=
  match l with
  | [] => ret tt
  | a :: t => f a ;;; forM f t
  end.

(** ** Checked natural-number subtraction *)
Definition subc (a b : nat) : res nat :=
  if b <=? a then Ok (a - b) else Err Underflow.

(** ** Python lists *)
Section PyList.
  Context {A : Type}.

  (** [l[i]] for a non-negative index. *)
  Definition getn (l : list A) (i : nat) : res A :=
    match nth_error l i with Some x => Ok x | None => Err IndexError end.

  (** [l[i]] for any integer: negative indices count from the end. *)
  Definition getz (l : list A) (i : Z) : res A :=
    let j := (if i <? 0 then i + Z.of_nat (length l) else i)%Z in
    if (j <? 0)%Z then Err IndexError else getn l (Z.to_nat j).

  (** [l[-1]] *)
  Definition getlast (l : list A) : res A := getz l (-1).

  (** [l[i] = f(l[i])] for a non-negative index (in-place update of a cell;
      [f] may raise). *)
  Fixpoint updn (l : list A) (i : nat) (f : A -> res A) : res (list A) :=
    match l, i with
    | [], _ => Err IndexError
    | x :: t, O => let! y := f x in Ok (y :: t)
    | x :: t, S j => let! t' := updn t j f in Ok (x :: t')
    end.

  (** [l[i] = x] *)
  Definition setn (l : list A) (i : nat) (x : A) : res (list A) :=
    updn l i (fun _ => Ok x).

  (** [del l[i]] *)
  Definition deln (l : list A) (i : nat) : res (list A) :=
    if i <? length l then Ok (firstn i l ++ skipn (S i) l) else Err IndexError.

  (** [l.insert(i, x)] (clamps like Python). *)
  Definition insn (l : list A) (i : nat) (x : A) : list A :=
    firstn i l ++ x :: skipn i l.

  (** [l[a:b]] for non-negative [a], [b]. *)
  Definition slicen (l : list A) (a b : nat) : list A :=
    firstn (b - a) (skipn a l).

  Definition is_nil (l : list A) : bool :=
    match l with [] => true | _ => false end.
End PyList.

(** [range(a, b)] for non-negative bounds. *)
Definition rangen (a b : nat) : list nat := seq a (b - a).

(** ** Slices *)

(** [slice(start, stop, step)], each possibly [None]. *)
Record slice : Set := mkslice { s_start : option Z; s_stop : option Z; s_step : option Z }.

(** [slice.indices(n)] (CPython [PySlice_Unpack] / [PySlice_AdjustIndices]). *)
Definition slice_adjust (lower upper n : Z) (dflt : Z) (o : option Z) : Z :=
  match o with
  | None => dflt
  | Some v =>
      if (v <? 0)%Z
      then let v' := (v + n)%Z in if (v' <? lower)%Z then lower else v'
      else if (upper <? v)%Z then upper else v
  end.

Definition slice_indices (sl : slice) (len : nat) : res (Z * Z * Z) :=
  let n := Z.of_nat len in
  let step := match s_step sl with None => 1%Z | Some k => k end in
  if (step =? 0)%Z then Err ValueError
  else
    let lower := (if step <? 0 then -1 else 0)%Z in
    let upper := (if step <? 0 then n - 1 else n)%Z in
    let start := slice_adjust lower upper n (if (step <? 0)%Z then upper else lower) (s_start sl) in
    let stop := slice_adjust lower upper n (if (step <? 0)%Z then lower else upper) (s_stop sl) in
    Ok (start, stop, step).

(** [list(range(start, stop, step))], [step <> 0]. *)
Definition range_len (start stop step : Z) : nat :=
  (if (0 <? step)%Z
   then Z.to_nat ((stop - start + step - 1) / step)
   else Z.to_nat ((start - stop - step - 1) / (- step)))%Z.
Definition rangez (start stop step : Z) : list Z :=
  map (fun i => (start + Z.of_nat i * step)%Z) (seq 0 (range_len start stop step)).

(** ** The [bisect] module (sortedlist.py:20) *)
Section Bisect.
  Context {A : Type}.
  Variable lt : A -> A -> res bool.

  (** CPython [bisect.bisect_right]:
<<
      while lo < hi:
          mid = (lo + hi) // 2
          if x < a[mid]: hi = mid
          else: lo = mid + 1
>> *)
  Fixpoint bisect_right_loop (fuel : nat) (a : list A) (x : A) (lo hi : nat) : res nat :=
    match fuel with
    | O => Err OutOfFuel
    | S fuel' =>
        if lo <? hi then
          let mid := (lo + hi) / 2 in
          let! y := getn a mid in
          let! b := lt x y in
          if b then bisect_right_loop fuel' a x lo mid
          else bisect_right_loop fuel' a x (S mid) hi
        else Ok lo
    end.
  Definition bisect_right (a : list A) (x : A) : res nat :=
    bisect_right_loop (S (length a)) a x 0 (length a).

  (** CPython [bisect.bisect_left]:
<<
      while lo < hi:
          mid = (lo + hi) // 2
          if a[mid] < x: lo = mid + 1
          else: hi = mid
>> *)
  Fixpoint bisect_left_loop (fuel : nat) (a : list A) (x : A) (lo hi : nat) : res nat :=
    match fuel with
    | O => Err OutOfFuel
    | S fuel' =>
        if lo <? hi then
          let mid := (lo + hi) / 2 in
          let! y := getn a mid in
          let! b := lt y x in
          if b then bisect_left_loop fuel' a x (S mid) hi
          else bisect_left_loop fuel' a x lo mid
        else Ok lo
    end.
  Definition bisect_left (a : list A) (x : A) : res nat :=
    bisect_left_loop (S (length a)) a x 0 (length a).

  (** CPython [bisect.insort] = [insort_right]: returns the new list. *)
  Definition insort (a : list A) (x : A) : res (list A) :=
    let! i := bisect_right a x in Ok (insn a i x).

  (** [sorted(l)] / [l.sort()]: stable sort.  Modelled as insertion sort (each
      element goes after the elements it is not smaller than); raises when a
      comparison it makes raises. *)
  Fixpoint sort_ins (x : A) (l : list A) : res (list A) :=
    match l with
    | [] => Ok [x]
    | y :: t =>
        let! b := lt x y in
        if b then Ok (x :: y :: t)
        else let! t' := sort_ins x t in Ok (y :: t')
    end.
  Fixpoint sort_acc (acc l : list A) : res (list A) :=
    match l with
    | [] => Ok acc
    | x :: t => let! acc' := sort_ins x acc in sort_acc acc' t
    end.
  Definition py_sorted (l : list A) : res (list A) := sort_acc [] l.
End Bisect.

(** [sorted(l, key=kf)]: all keys are computed first, then the values are sorted
    stably by key. *)
Definition py_sorted_key {V K} (lt : K -> K -> res bool) (kf : V -> res K)
    (l : list V) : res (list V) :=
  let! ks := mapR kf l in
  let! ps := py_sorted (fun p q => lt (fst p) (fst q)) (combine ks l) in
  Ok (map snd ps).

(** [values[pos:pos+load] for pos in range(0, len(values), load)]
    (sortedlist.py:291-293).  [range] with step 0 raises ValueError. *)
Fixpoint chunks_fuel {A} (fuel load : nat) (l : list A) : res (list (list A)) :=
  match l with
  | [] => Ok []
  | _ :: _ =>
      match fuel with
      | O => Err OutOfFuel
      | S f =>
          let! rest := chunks_fuel f load (skipn load l) in
          Ok (firstn load l :: rest)
      end
  end.
Definition chunks {A} (load : nat) (l : list A) : res (list (list A)) :=
  if load =? 0 then Err ValueError else chunks_fuel (length l) load l.

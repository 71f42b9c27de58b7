(** * The calls of user code made by one operation of a SortedKeyList *)
From Verif Require Import PyBase Model History ModelEffect.
Local Set Implicit Arguments.

(** [key(x)], [j < k] and [j == k] of keys, [x == y] and [x < y] of values. *)
Inductive ucall (V K : Type) : Type :=
| UKey (x : V)
| ULess (j k : K)
| USame (j k : K)
| UEq (x y : V)
| UVLess (x y : V).
Arguments UKey {V K} x.
Arguments ULess {V K} j k.
Arguments USame {V K} j k.
Arguments UEq {V K} x y.
Arguments UVLess {V K} x y.

(** A call that answers [a] and is written down. *)
Definition noted {V K A} (c : ucall V K) (a : A) : M (list (ucall V K)) A := fun w => (Ok a, w ++ [c]).

Section Traced.
  Context {V K : Type}.
  Variable srt : sorting (list (ucall V K)).
  Variable key : V -> K.
  Variables kltb keqb : K -> K -> bool.
  Variables vltb eqb : V -> V -> bool.
  Variable dflt : nat.

  (** The operation [o] of ModelEffect.v, the world being the calls so far. *)
  Definition noted_step (o : kop V K) : list (ucall V K) * skl V K -> out V * (list (ucall V K) * skl V K) :=
    ek_step srt (fun x y => noted (UVLess x y) (vltb x y)) (fun x y => noted (UEq x y) (eqb x y)) (fun j k => noted (ULess j k) (kltb j k))
      (fun j k => noted (USame j k) (keqb j k)) (fun x => noted (UKey x) (key x)) dflt o.
  (** The calls that [o] makes on [s]. *)
  Definition trace (o : kop V K) (s : skl V K) : list (ucall V K) := fst (snd (noted_step o ([], s))).
End Traced.

Definition is_key {V K} (c : ucall V K) : bool := match c with UKey _ => true | _ => false end.
Definition is_less {V K} (c : ucall V K) : bool := match c with ULess _ _ => true | _ => false end.
Definition is_same {V K} (c : ucall V K) : bool := match c with USame _ _ => true | _ => false end.
Definition is_eq {V K} (c : ucall V K) : bool := match c with UEq _ _ => true | _ => false end.
Definition is_vless {V K} (c : ucall V K) : bool := match c with UVLess _ _ => true | _ => false end.
Definition count {A} (f : A -> bool) (l : list A) : nat := length (filter f l).

(** At most [nk] calls of the key function, [nl] [<] of keys, [ns] [==] of keys, [ne] [==] of values, and no [<] of values. *)
Definition within {V K} (tr : list (ucall V K)) (nk nl ns ne : nat) : Prop :=
  count is_key tr <= nk /\ count is_less tr <= nl /\ count is_same tr <= ns /\ count is_eq tr <= ne /\ count is_vless tr = 0.

(** What a lookup of [v] among [l] may ask: the key of [v] itself, whether the key of a stored value is smaller than, or the same as, that of
    [v], and whether a stored value with the same key equals [v]. *)
Definition about {V K} (key : V -> K) (keqb : K -> K -> bool) (l : list V) (v : V) (c : ucall V K) : Prop :=
  match c with
  | UKey x => x = v
  | ULess j k => k = key v /\ In j (map key l)
  | USame j k => k = key v /\ In j (map key l)
  | UEq x y => y = v /\ In x l /\ keqb (key x) (key v) = true
  | UVLess _ _ => False
  end.
(** A lookup by value, the value looked for. *)
Definition looks {V K} (o : kop V K) : option V :=
  match o with
  | KList (LContains v) | KList (LDiscard v) | KList (LRemove v) | KList (LCount v) | KList (LIndex v _ _) => Some v
  | _ => None
  end.
(** [add], the bisections, and [irange], with the keys and values they are given, and how often they ask for a place. *)
Definition places {V K} (o : kop V K) : option (list V * list K) :=
  match o with
  | KList (LAdd v) | KList (LBisectLeft v) | KList (LBisectRight v) => Some ([v], [])
  | KBisectLeft k | KBisectRight k => Some ([], [k])
  | KList (LIRange mn mx _ _ _) => Some (match mn with Some v => [v] | None => [] end ++ match mx with Some v => [v] | None => [] end, [])
  | KIRange mn mx _ _ _ => Some ([], match mn with Some k => [k] | None => [] end ++ match mx with Some k => [k] | None => [] end)
  | _ => None
  end.
(** What they may ask: the keys of the values given; comparisons of a key given with that of a stored value. *)
Definition between_keys {V K} (key : V -> K) (l vs : list V) (ks : list K) (c : ucall V K) : Prop :=
  match c with
  | UKey x => In x vs
  | ULess j k => In j (map key l) /\ In k (ks ++ map key vs) \/ In k (map key l) /\ In j (ks ++ map key vs)
  | _ => False
  end.
(** Operations that call no user code at all. *)
Definition silent {V K} (o : kop V K) : Prop :=
  match o with
  | KList LClear | KList (LGet _) | KList (LSlice _) | KList (LDel _) | KList (LPop _) | KList LLen | KList LIter | KList LReversed
  | KList (LISlice _ _ _) | KList LUnsupported => True
  | _ => False
  end.

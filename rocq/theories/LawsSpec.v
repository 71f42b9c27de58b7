(** * Laws between the operations of SortedList and SortedKeyList

    Each law compares what operations answer on the same object, or before and after a change; no reference list is used.
    After [+] and [*] the object is the new list (History.v). *)
From Verif Require Import PyBase History.
Local Set Implicit Arguments.

Section Laws.
  Context {V S : Type}.
  Variable do : lop V -> S -> out V * S.
  Variables ltb eqb : V -> V -> bool.
  Definition ask (o : lop V) (s : S) : out V := fst (do o s).
  Definition after (o : lop V) (s : S) : S := snd (do o s).
  Definition backwards (r : out V) : out V := match r with RList l => RList (rev l) | _ => r end.
  Definition from_to (i j : option Z) : lop V := LSlice (mkslice i j None).
  (** [b] is no bound if no value is given, otherwise the place that the bisecting operation gives for the value. *)
  Definition bound (op : V -> lop V) (v : option V) (s : S) (b : option Z) : Prop :=
    match v with None => b = None | Some v => exists i, ask (op v) s = RNat i /\ b = Some (Z.of_nat i) end.

  Record list_laws (s : S) : Prop := {
    (** [irange] is the slice between the places of its bounds. *)
    law_range : forall mn mx (a b : bool) i j, bound (if a then @LBisectLeft V else @LBisectRight V) mn s i ->
      bound (if b then @LBisectRight V else @LBisectLeft V) mx s j -> ask (LIRange mn mx a b false) s = ask (from_to i j) s;
    law_islice : forall i j, ask (LISlice i j false) s = ask (from_to i j) s;
    law_iter : ask LIter s = ask (from_to None None) s;
    (** Backwards. *)
    law_back : ask LReversed s = backwards (ask LIter s) /\
      (forall mn mx (a b : bool), ask (LIRange mn mx a b true) s = backwards (ask (LIRange mn mx a b false) s)) /\
      (forall i j, ask (LISlice i j true) s = backwards (ask (LISlice i j false) s));
    (** [v in s], [count], [index] and [remove] agree on whether there is a [v]. *)
    law_found : forall v,
      (exists b n, ask (LContains v) s = RBool b /\ ask (LCount v) s = RNat n /\ (b = true <-> 0 < n) /\
        (b = true -> (exists i, ask (LIndex v None None) s = RNat i) /\ ask (LRemove v) s = RUnit) /\
        (b = false -> ask (LIndex v None None) s = RExn ValueError /\ ask (LRemove v) s = RExn ValueError));
    (** What [index] finds is equal, and is between the places of [bisect_left] and [bisect_right]. *)
    law_index : forall v a b k, ask (LIndex v a b) s = RNat k -> exists x i j, ask (LGet (Z.of_nat k)) s = RVal x /\ eqb x v = true /\
      ask (LBisectLeft v) s = RNat i /\ ask (LBisectRight v) s = RNat j /\ i <= k < j;
    (** [add] puts the value to its place from the right, and deleting it there undoes it. *)
    law_add : forall v, exists j, ask (LBisectRight v) s = RNat j /\ ask (LGet (Z.of_nat j)) (after (LAdd v) s) = RVal v /\
      ask (LBisectRight v) (after (LAdd v) s) = RNat (j + 1) /\ ask (LBisectLeft v) (after (LAdd v) s) = ask (LBisectLeft v) s /\
      ask LIter (after (LDel (Z.of_nat j)) (after (LAdd v) s)) = ask LIter s;
    (** [pop] is reading and deleting. *)
    law_pop : forall i, ask (LPop i) s = ask (LGet i) s /\ ask LIter (after (LPop i) s) = ask LIter (after (LDel i) s);
    (** Taking a value out and adding it again leaves tied values everywhere. *)
    law_again : forall v, ask (LRemove v) s = RUnit -> exists l l', ask LIter s = RList l /\ ask LIter (after (LAdd v) (after (LRemove v) s)) = RList l' /\
      Forall2 (fun x y => ltb x y = false /\ ltb y x = false) l l';
    (** [update] in one go or in two, with one value, by [+=] and by [+]. *)
    law_update : forall it, (forall it', ask LIter (after (LUpdate (it ++ it')) s) = ask LIter (after (LUpdate it') (after (LUpdate it) s))) /\
      ask LIter (after (LIAdd it) s) = ask LIter (after (LUpdate it) s) /\ ask LIter (after (LPlus it) s) = ask LIter (after (LUpdate it) s);
    law_update1 : forall v, ask LIter (after (LUpdate [v]) s) = ask LIter (after (LAdd v) s);
    (** Slices that meet, and what the deletion of a slice leaves. *)
    law_split : forall i, exists p q, ask (from_to None (Some i)) s = RList p /\ ask (from_to (Some i) None) s = RList q /\ ask LIter s = RList (p ++ q);
    law_cut : forall i j, (0 <= i <= j)%Z -> exists p q, ask (from_to None (Some i)) s = RList p /\ ask (from_to (Some j) None) s = RList q /\
      ask LIter (after (LDelSlice (mkslice (Some i) (Some j) None)) s) = RList (p ++ q);
    (** Repetition is repeated [update] by the values. *)
    law_mul : forall n, (0 <= n)%Z -> exists l, ask LIter s = RList l /\
      ask LIter (after (LMul (n + 1)) s) = ask LIter (after (LUpdate l) (after (LMul n) s)) /\ ask LIter (after (LIMul n) s) = ask LIter (after (LMul n) s) /\
      ask LIter (after (LMul 0) s) = RList [] }.

  (** Where [==] is that of the order, [count] is the distance of the two places. *)
  Definition count_law (s : S) : Prop := forall v, exists i n, ask (LBisectLeft v) s = RNat i /\ ask (LCount v) s = RNat n /\ ask (LBisectRight v) s = RNat (i + n).
End Laws.

Section KeyLaws.
  Context {V K S : Type}.
  Variable do : kop V K -> S -> out V * S.
  Variable key : V -> K.
  Definition kask (o : kop V K) (s : S) : out V := fst (do o s).
  Definition kbound (op : K -> kop V K) (k : option K) (s : S) (b : option Z) : Prop :=
    match k with None => b = None | Some k => exists i, kask (op k) s = RNat i /\ b = Some (Z.of_nat i) end.
  Record key_laws (s : S) : Prop := {
    (** The methods for values are those for their keys. *)
    law_bisect_key : forall v, kask (KList (LBisectLeft v)) s = kask (KBisectLeft (key v)) s /\ kask (KList (LBisectRight v)) s = kask (KBisectRight (key v)) s;
    law_irange_key : forall mn mx a b r, kask (KList (LIRange mn mx a b r)) s = kask (KIRange (option_map key mn) (option_map key mx) a b r) s;
    (** [irange_key] is the slice between the places of its bounds, whether or not some value has these keys. *)
    law_range_key : forall mn mx (a b : bool) i j, kbound (if a then @KBisectLeft V K else @KBisectRight V K) mn s i ->
      kbound (if b then @KBisectRight V K else @KBisectLeft V K) mx s j -> kask (KIRange mn mx a b false) s = kask (KList (from_to i j)) s;
    law_back_key : forall mn mx a b, kask (KIRange mn mx a b true) s = backwards (kask (KIRange mn mx a b false) s) }.
End KeyLaws.

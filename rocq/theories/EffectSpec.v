(** * What is guaranteed when [<], [==] and the key function have effects

    [eff] relates the contents [l] of a SortedList before an operation, the outcome [r] and the contents [l'] afterwards when every call
    of user code is a step of a world [W] that may answer differently each time; [keff] does so for a SortedKeyList. *)
From Verif Require Import PyBase Model Spec History FaultSpec ModelEffect.
From Coq Require Import Sorting.Permutation.
Local Set Implicit Arguments.

(** A call that raises [e] in some world; a call that answers [True] in some world. *)
Definition may_raise {W A} (m : M W A) (e : exn) : Prop := exists w w', m w = (Err e, w').
Definition may_hold {W} (m : M W bool) : Prop := exists w w', m w = (Ok true, w').

(** A sorting algorithm returns the values it was given in some order, or raises what a comparison raised. *)
Definition permutes {W} (srt : sorting W) : Prop := forall A (lt : A -> A -> M W bool) l w,
  match fst (srt A lt l w) with
  | Ok l' => Permutation l' l
  | Err e => exists x y, may_raise (lt x y) e
  end.

(** It sorts as [sorted] of PyBase.v does, when comparisons have no effect. *)
Definition sorts_as {W} (srt : sorting W) : Prop := forall A (lt : A -> A -> res bool) l w,
  srt A (fun x y => liftr (lt x y)) l w = (py_sorted lt l, w).

Section Eff.
  Context {V : Type}.
  (** Values that [==] may answer [True] for, exceptions of user code. *)
  Variable same : V -> V -> Prop.
  Variable raised : exn -> Prop.

  Definition dropped (v : V) (l l' : list V) : Prop := exists a x b, l = a ++ x :: b /\ l' = a ++ b /\ same x v.
  (** A query: nothing changes; it answers as [P] says, or an exception of user code or in [doc] escapes. *)
  Definition query (doc : exn -> Prop) (P : out V -> Prop) (r : out V) (l l' : list V) : Prop :=
    l' = l /\ ((exists e, r = RExn e /\ (raised e \/ doc e)) \/ P r).
  Definition no_doc (_ : exn) : Prop := False.
  Definition index_err (e : exn) : Prop := e = IndexError.
  Definition at_most (n : nat) (r : out V) : Prop := exists m, r = RNat m /\ m <= n.
  Definition below (n : nat) (r : out V) : Prop := exists m, r = RNat m /\ m < n.
  (** A run of neighbours. *)
  Definition stretch (l : list V) (reverse : bool) (r : out V) : Prop :=
    exists a m b, l = a ++ m ++ b /\ r = RList (if reverse then rev m else m).
  Definition has (v : V) (l : list V) (r : out V) : Prop :=
    exists b : bool, r = RBool b /\ (b = true -> exists x, In x l /\ same x v).

  Definition eff (o : lop V) (l : list V) (r : out V) (l' : list V) : Prop :=
    match o with
    | LDiscard v => (r = RUnit /\ (l' = l \/ dropped v l l')) \/ (exists e, r = RExn e /\ l' = l /\ (raised e \/ e = IndexError))
    | LRemove v => (r = RUnit /\ dropped v l l') \/
                   (exists e, r = RExn e /\ l' = l /\ (raised e \/ e = IndexError \/ e = ValueError))
    | LContains v => query index_err (has v l) r l l'
    | LBisectLeft _ | LBisectRight _ => query no_doc (at_most (length l)) r l l'
    (* [Underflow]: Python answers with a negative number *)
    | LCount _ => query (fun e => e = Underflow) (at_most (length l)) r l l'
    | LIndex _ _ _ => query (fun e => e = ValueError \/ e = IndexError) (below (length l)) r l l'
    | LIRange _ _ _ _ reverse => query no_doc (stretch l reverse) r l l'
    | LCompare _ _ => query no_doc (fun r => exists b, r = RBool b) r l l'
    | _ => loose (fun _ _ => Err OutOfFuel) raised o l r l'
    end.

  (** A SortedKeyList that is being filled when the key function raises keeps the values. *)
  Definition keff {K} (o : kop V K) (l : list V) (r : out V) (l' : list V) : Prop :=
    match o with
    | KList (LDelSlice sl) =>
        match sp_del_slice sl l with
        | Ok l1 => or_raised raised r (Permutation l' l1) (l' = [] \/ Permutation l' l1)
        | Err e => r = RExn e /\ l' = l
        end
    | KList (LReset _) => or_raised raised r (Permutation l' l) (l' = [] \/ Permutation l' l)
    | KList (LIMul n) => or_raised raised r (Permutation l' (sp_mul n l)) (l' = [] \/ Permutation l' (sp_mul n l))
    | KList (LCount _) => query index_err (at_most (length l)) r l l'
    | KList o => eff o l r l'
    | KBisectLeft _ | KBisectRight _ => query no_doc (at_most (length l)) r l l'
    | KIRange _ _ _ _ reverse => query no_doc (stretch l reverse) r l l'
    end.
End Eff.

(** The bookkeeping of a container agrees with its values, except that maxes and keys may be those of former times. *)
Definition framed {V K} (c : core V K) : Prop :=
  len c = length (concat (lists c)) /\ length (maxes c) = length (lists c) /\
  Forall (fun l => 1 <= length l <= 2 * load c) (lists c) /\ Forall (fun l => load c / 2 <= length l) (removelast (lists c)).

(** A history: each operation begins in any world. *)
Definition e_run {W V} (srt : sorting W) lt eq dflt :=
  run (fun (p : W * lop V) (s : W * core V V) => e_step srt lt eq dflt (snd p) (fst p, snd s)).
(** [c] is a SortedList after a history in which no [update] and no [+=] raised. *)
Definition e_reach {W V} (srt : sorting W) (lt eq : V -> V -> M W bool) (dflt : nat) (c : core V V) : Prop :=
  exists w0 h, Forall (fun p => lop_ok (snd p)) h /\
    Forall2 update_fine (map snd h) (fst (e_run srt lt eq dflt h (w0, sl_init dflt))) /\
    c = snd (snd (e_run srt lt eq dflt h (w0, sl_init dflt))).

(** The operation did not raise while it filled the list. *)
Definition refill_fine {V K} (o : kop V K) (r : out V) : Prop :=
  match o, r with
  | KList (LDelSlice sl), RExn _ => s_step sl = Some 0%Z
  | KList (LUpdate _), RExn _ | KList (LIAdd _), RExn _ | KList (LReset _), RExn _ | KList (LIMul _), RExn _ => False
  | _, _ => True
  end.
Definition ek_run {W V K} (srt : sorting W) vlt eq klt keq kf dflt :=
  run (fun (p : W * kop V K) (s : W * skl V K) => ek_step srt vlt eq klt keq kf dflt (snd p) (fst p, snd s)).
Definition ek_reach {W V K} (srt : sorting W) (vlt eq : V -> V -> M W bool) (klt keq : K -> K -> M W bool) (kf : V -> M W K) (dflt : nat)
    (s : skl V K) : Prop :=
  exists w0 h, Forall (fun p => kop_ok (snd p)) h /\
    Forall2 refill_fine (map snd h) (fst (ek_run srt vlt eq klt keq kf dflt h (w0, skl_init dflt))) /\
    s = snd (snd (ek_run srt vlt eq klt keq kf dflt h (w0, skl_init dflt))).

(** Exceptions of user code. *)
Definition e_raises {W V} (lt eq : V -> V -> M W bool) (e : exn) : Prop :=
  (exists x y, may_raise (lt x y) e) \/ (exists x y, may_raise (eq x y) e).
Definition ek_raises {W V K} (vlt eq : V -> V -> M W bool) (klt keq : K -> K -> M W bool) (kf : V -> M W K) (e : exn) : Prop :=
  e_raises vlt eq e \/ e_raises klt keq e \/ exists v, may_raise (kf v) e.

(** * What a program that keeps iterators over a SortedDict should see

    An iterator goes through the keys there were when it was made (made by a view: when it was first advanced), in order, each with the
    value that the dict holds for it now, as long as no key is added or deleted, and [update] and [_reset] are not called; once it has
    reported the end it stays at the end, whatever happens.  What it does after a change is the subject of the other claims. *)
From Verif Require Import PyBase Model Spec History Reach ListClass ClassSpec ModelSet SetSpec ModelDict DictSpec ModelHeap ModelKHeap ModelIter ModelViewIter.
Local Set Implicit Arguments.

(** The list inside is a SortedList of totally ordered values, or a SortedKeyList of values whose keys are: values and keys are
    of one type, with [<] and [==] ([ltb], [eqb]).  Compare [list_class]. *)
Inductive heap_class : forall (S V K : Type), hlist S V K ->
    (V -> V -> bool) -> (V -> V -> bool) -> (fwd V K -> list V -> out V * list V) -> nat -> Prop :=
| hclass_plain : forall (V K : Type) (ltb eqb : V -> V -> bool) dflt,
    TotalOrder ltb eqb -> 1 <= dflt ->
    heap_class (hplain (K:=K) (total2 ltb) (total2 eqb) dflt) ltb eqb (fwd_plain ltb eqb) dflt
| hclass_keyed : forall (V : Type) (key : V -> V) (ltb eqb : V -> V -> bool) dflt,
    TotalOrder ltb eqb -> EqCompat (by_key key ltb) eqb -> 1 <= dflt ->
    heap_class (hkeyed (total2 ltb) (total2 eqb) (total1 key) dflt) (by_key key ltb) eqb (fwd_keyed key ltb eqb) dflt.

Definition vop_ok {A B K} (eqb : A -> A -> bool) (o : vop A B K) : Prop :=
  match o with VDo o => dop_ok eqb o | _ => True end.

(** An iterator not yet started; the keys still to come; disturbed; at the end. *)
Inductive vrit (A : Type) : Type := RNew (w : over) | RLive (w : over) (ks : list A) | RLost | REnded.
Arguments RNew {A}. Arguments RLost {A}. Arguments REnded {A}.

Section Ref.
  Context {A B K : Type}.
  Variables ltb eqb : A -> A -> bool.
  Variable veqb : B -> B -> bool.
  Variable fref : fwd A K -> list A -> out A * list A.
  Notation map_t := (list (A * B)).

  (** The operation may add or delete keys of [d], or reorganise the list inside. *)
  Definition moves (o : dop A B K) (d : map_t) : bool :=
    let new k := match lookup eqb k d with Some _ => false | None => true end in
    match o with
    | DSet k _ | DSetDefault k _ => new k
    | DDel k | DPop k _ => negb (new k)
    | DClear | DPopItem _ | DUpdate _ | DIOr _ | DViewDel _ | DViewDelSlice _ | DFwd (FReset _) => true
    | _ => false
    end.
  Definition lose (x : vrit A) : vrit A := match x with RLive _ _ => RLost | _ => x end.

  (** Backwards? *)
  Definition backwards (w : over) : bool :=
    match w with KeysBack | KeysViewBack | ItemsViewBack | ValuesViewBack => true | _ => false end.
  Definition start (w : over) (d : map_t) : list A :=
    let l := map fst (listing ltb d) in if backwards w then rev l else l.
  Definition item (w : over) (k : A) (d : map_t) : dout A B :=
    match w with
    | Keys | KeysBack | KeysView | KeysViewBack => OKey k
    | ItemsView | ItemsViewBack => match lookup eqb k d with Some v => OItem (k, v) | None => OExn KeyError end
    | ValuesView | ValuesViewBack => match lookup eqb k d with Some v => OVal v | None => OExn KeyError end
    end.
  Definition advance (w : over) (ks : list A) (d : map_t) : vout A B * vrit A :=
    match ks with
    | [] => (VStop, REnded)
    | k :: t => (VOut (item w k d), RLive w t)
    end.

  (** The outcome, unless it is unspecified. *)
  Definition vr_step (o : vop A B K) (s : map_t * list (vrit A)) : option (vout A B) * (map_t * list (vrit A)) :=
    let (d, its) := s in
    match o with
    | VDo o =>
        let (r, d') := ref_step ltb eqb veqb fref o d in
        (Some (VOut r),
         (match o with DOr _ | DROr _ | DCopy | DReduce _ => d | _ => d' end, if moves o d then map lose its else its))
    | VMake w => (Some (VOut ONone), (d, its ++ [match w with Keys | KeysBack => RLive w (start w d) | _ => RNew w end]))
    | VNext j =>
        match nth_error its j with
        | None => (Some (VOut (OExn IndexError)), s)
        | Some (RNew w) => let (r, x) := advance w (start w d) d in (Some r, (d, firstn j its ++ x :: skipn (S j) its))
        | Some (RLive w ks) => let (r, x) := advance w ks d in (Some r, (d, firstn j its ++ x :: skipn (S j) its))
        | Some RLost => (None, s)
        | Some REnded => (Some VStop, s)
        end
    end.
  Definition vr_run := run vr_step.
End Ref.

(** Outcomes are as specified, where they are. *)
Definition agree {X} : list X -> list (option X) -> Prop :=
  Forall2 (fun r e => match e with Some x => r = x | None => True end).

(** The iterators made in a history. *)
Definition makes {A B K} (ops : list (vop A B K)) : list over :=
  flat_map (fun o => match o with VMake w => [w] | _ => [] end) ops.

(** What may come out of an iterator after any changes to the dict, whose items are now [d]. *)
Definition may_yield {A B} (eqb : A -> A -> bool) (w : over) (d : list (A * B)) (r : vout A B) : Prop :=
  match w, r with
  | _, VStop => True
  | (Keys | KeysBack | KeysView), VOut (OKey _) => True
  | KeysViewBack, VOut (OKey k) => has_key eqb d k
  | (ItemsView | ItemsViewBack), VOut (OItem (k, v)) => maps eqb d k v
  | (ValuesView | ValuesViewBack), VOut (OVal v) => exists k, maps eqb d k v
  | (ItemsView | ValuesView), VOut (OExn e) => e = KeyError
  | (KeysViewBack | ItemsViewBack | ValuesViewBack), VOut (OExn e) => e = IndexError
  | _, _ => False
  end.

(** ** Claims that fail *)

(** The keys that the [j]-th iterator yields in a history. *)
Fixpoint keys_yielded {A B K} (j : nat) (ops : list (vop A B K)) (outs : list (vout A B)) : list A :=
  match ops, outs with
  | VNext i :: ops, VOut (OKey k) :: outs | VNext i :: ops, VOut (OItem (k, _)) :: outs =>
      if i =? j then k :: keys_yielded j ops outs else keys_yielded j ops outs
  | _ :: ops, _ :: outs => keys_yielded j ops outs
  | _, _ => []
  end.
(** Each operation leaves the dict with the keys it had. *)
Fixpoint keys_stay {A B K} (rs : dop A B K -> list (A * B) -> dout A B * list (A * B)) (ops : list (vop A B K)) (d : list (A * B)) : Prop :=
  match ops with
  | [] => True
  | VDo o :: ops => let d' := snd (rs o d) in map fst d' = map fst d /\ keys_stay rs ops d'
  | _ :: ops => keys_stay rs ops d
  end.
(** The exceptions raised by [next]. *)
Fixpoint next_raised {A B K} (ops : list (vop A B K)) (outs : list (vout A B)) : list exn :=
  match ops, outs with
  | VNext _ :: ops, VOut (OExn e) :: outs => e :: next_raised ops outs
  | _ :: ops, _ :: outs => next_raised ops outs
  | _, _ => []
  end.

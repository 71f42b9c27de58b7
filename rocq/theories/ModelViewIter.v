(** * Iterators over a SortedDict and its views that a program keeps

    The SortedDict of ModelDict.v, built on the SortedList or SortedKeyList of ModelHeap.v and ModelKHeap.v, whose internal lists are
    references, and the iterators of ModelIter.v over those lists.  A generator function, such as
    the [__iter__] of the view classes, runs nothing until it is advanced for the first time, and has ended once it has raised. *)
From Verif Require Import PyBase Model History ListClass ModelSet ModelDict ModelHeap ModelKHeap ModelIter.
Local Set Implicit Arguments.

(** ** The list inside, on a heap *)

(** The methods of ListClass.v, the heap, and the references of [_lists].  An iterable that is passed to [update] is a list of the
    caller's on the same heap. *)
Record hlist (S V K : Type) : Type := mkhlist { hl_cls :> listcls S V K; hl_heap : S -> heap V; hl_rows : S -> list ref }.

(** The call of a constructor, on a heap of its own. *)
Definition own_heap {V O} (new : harg -> heap V -> res O * heap V) (l : list V) : res (heap V * O) :=
  match new (HList 0) [l] with
  | (Ok o, h) => Ok (h, o)
  | (Err e, _) => Err e
  end.

(** class SortedList (ModelHeap.v). *)
Definition hplain {V K} (lt eq : V -> V -> res bool) (dflt : nat) : hlist (heap V * hsl V) V K :=
  mkhlist
    {| l_new := own_heap (h_new lt dflt);
       l_add := h_add lt;
       l_clear := h_clear;
       l_update l := r <- h_alloc l ;; h_update lt (HList r);
       l_remove := h_remove lt eq;
       l_pop := pop (h_vt lt);
       l_get i := reading (getitem_int i);
       l_slice sl := r <- h_getitem_slice sl ;; h_cell r;
       l_del := delitem_int (h_vt lt);
       l_del_slice := h_delitem_slice lt;
       l_iter := reading iter;
       l_reversed := reading reversed;
       l_len := reading length_of;
       l_check s := sl_check lt eq (view s);
       l_fwd f s := match fwd_op f with
                    | KList o => h_step lt eq o s
                    | _ => (RExn AttributeError, s)
                    end |}
    fst (fun s => rows (snd s)).

(** class SortedKeyList (ModelKHeap.v). *)
Definition hkeyed {V} (lt eq : V -> V -> res bool) (kf : V -> res V) (dflt : nat) : hlist (heap V * khsl V) V V :=
  mkhlist
    {| l_new := own_heap (k_new lt kf dflt);
       l_add := k_add lt kf;
       l_clear := k_clear;
       l_update l := r <- k_alloc l ;; k_update lt kf (HList r);
       l_remove := k_remove lt eq kf;
       l_pop := pop (k_vt lt kf);
       l_get i := onbase (reading (getitem_int i));
       l_slice sl := r <- k_getitem_slice sl ;; k_cell r;
       l_del := delitem_int (k_vt lt kf);
       l_del_slice := k_delitem_slice lt kf;
       l_iter := onbase (reading iter);
       l_reversed := onbase (reading reversed);
       l_len := onbase (reading length_of);
       l_check s := skl_check lt eq kf (kview s);
       l_fwd f s := k_step lt eq kf (fwd_op f) s |}
    fst (fun s => rows (kbase (snd s))).

(** ** Iterators *)

(** What is iterated over: [iter(sd)], [reversed(sd)] (sorteddict.py 233-253); [iter] of [sd.keys()], [sd.items()], [sd.values()]
    (the [__iter__] of [collections.abc.KeysView], [ItemsView], [ValuesView]); [reversed] of them
    ([collections.abc.Sequence.__reversed__]). *)
Inductive over : Set := Keys | KeysBack | KeysView | ItemsView | ValuesView | KeysViewBack | ItemsViewBack | ValuesViewBack.

(** A generator that has not started, one that goes on with an iterator over the keys, one with [reversed(range(n))] before index
    [n - 1], one that has ended. *)
Inductive viter : Set := VStart (w : over) | VRun (w : over) (it : iterator) | VBack (w : over) (n : nat) | VOver.

Inductive vout (A B : Type) : Type := VOut (r : dout A B) | VStop.
Arguments VOut {A B}. Arguments VStop {A B}.

Section Iterate.
  Context {S A B K : Type}.
  Variable T : hlist S A K.
  Variable eqb : A -> A -> bool.
  Notation SD := (sdict S A B).

  (** [SortedList.__iter__], [__reversed__] (sortedlist.py 847-867). *)
  Definition keys_iter : iterator := [SFlat (ModelIter.OFwd 0) false None].
  Definition keys_reversed (s : S) : iterator := [SFlat (OBack (length (hl_rows T s))) true None].

  (** An iterator is made. *)
  Definition v_make (w : over) (s : SD) : viter :=
    match w with
    | Keys => VRun Keys keys_iter
    | KeysBack => VRun KeysBack (keys_reversed (d_list s))
    | _ => VStart w
    end.

  (** What is yielded for a key: the key ([yield from self._mapping]), [(key, self._mapping[key])], [self._mapping[key]]. *)
  Definition v_yield (w : over) (k : A) (d : list (A * B)) : dout A B :=
    match w with
    | ItemsView => match d_get eqb k d with Ok v => OItem (k, v) | Err e => OExn e end
    | ValuesView => match d_get eqb k d with Ok v => OVal v | Err e => OExn e end
    | _ => OKey k
    end.
  (** [self[i]] (sorteddict.py 611-638, 658-693, 709-744). *)
  Definition v_at (w : over) (i : nat) (s : SD) : dout A B * SD :=
    match w with
    | ItemsViewBack => dsee OItem (iv_get T eqb (Z.of_nat i)) s
    | ValuesViewBack => dsee OVal (vv_get T eqb (Z.of_nat i)) s
    | _ => dsee OKey (kv_get T (Z.of_nat i)) s
    end.

  (** [next]. *)
  Definition v_run (w : over) (it : iterator) (s : SD) : vout A B * viter * SD :=
    match next (hl_heap T (d_list s)) (hl_rows T (d_list s)) it with
    | (Ok None, it) => (VStop, match w with Keys | KeysBack => VRun w it | _ => VOver end, s)
    | (Ok (Some k), it) =>
        match v_yield w k (d_items s) with
        | OExn e => (VOut (OExn e), VOver, s)
        | r => (VOut r, VRun w it, s)
        end
    | (Err e, it) => (VOut (OExn e), match w with Keys | KeysBack => VRun w it | _ => VOver end, s)
    end.
  Definition v_back (w : over) (n : nat) (s : SD) : vout A B * viter * SD :=
    match n with
    | O => (VStop, VOver, s)
    | Datatypes.S i => match v_at w i s with
                       | (OExn e, s) => (VOut (OExn e), VOver, s)
                       | (r, s) => (VOut r, VBack w i, s)
                       end
    end.
  Definition v_next (x : viter) (s : SD) : vout A B * viter * SD :=
    match x with
    | VStart w => match w with
                  | KeysViewBack | ItemsViewBack | ValuesViewBack => v_back w (length (d_items s)) s
                  | _ => v_run w keys_iter s
                  end
    | VRun w it => v_run w it s
    | VBack w n => v_back w n s
    | VOver => (VStop, VOver, s)
    end.
End Iterate.

(** ** A program with a SortedDict and iterators *)
Inductive vop (A B K : Type) : Type :=
| VDo (o : dop A B K)
| VMake (w : over)        (** one more iterator *)
| VNext (j : nat).        (** [next] of the [j]-th iterator *)
Arguments VDo {A B K}. Arguments VMake {A B K}. Arguments VNext {A B K}.

Section VWorld.
  Context {S A B K : Type}.
  Variable T : hlist S A K.
  Variable eqb : A -> A -> bool.
  Variable veqb : B -> B -> bool.
  Notation SD := (sdict S A B).
  Notation VW := (SD * list viter)%type.

  Fixpoint set_viter (l : list viter) (j : nat) (x : viter) : list viter :=
    match l, j with
    | [], _ => []
    | _ :: t, O => x :: t
    | y :: t, Datatypes.S j => y :: set_viter t j x
    end.
  (** [copy], [|] and pickling make a new SortedDict, which is not looked at here; this one stays as it is (C85). *)
  Definition v_do (o : dop A B K) (s : SD) : dout A B * SD :=
    match o with
    | DOr _ | DROr _ | DCopy | DReduce _ => (fst (sd_step T eqb veqb o s), s)
    | _ => sd_step T eqb veqb o s
    end.
  Definition vi_step (o : vop A B K) (s : VW) : vout A B * VW :=
    let (d, its) := s in
    match o with
    | VDo o => let (r, d) := v_do o d in (VOut r, (d, its))
    | VMake w => (VOut ONone, (d, its ++ [v_make T w d]))
    | VNext j =>
        match getn its j with
        | Err e => (VOut (OExn e), s)
        | Ok x => match v_next T eqb x d with (r, x, d) => (r, (d, set_viter its j x)) end
        end
    end.
  Definition vi_run := run vi_step.
End VWorld.

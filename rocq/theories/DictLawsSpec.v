(** * Laws between the operations of SortedDict

    Each law compares what operations answer on the same dict, or before and after a change; no reference mapping is used. After [|], [copy]
    and pickling the dict is the new one (ModelDict.v). *)
From Verif Require Import PyBase Model ListClass ModelSet ModelDict.
Local Set Implicit Arguments.

Section Laws.
  Context {S A B K : Type}.
  Variable do : dop A B K -> S -> dout A B * S.
  Variable eqb : A -> A -> bool.
  Definition dask (o : dop A B K) (s : S) : dout A B := fst (do o s).
  Definition dafter (o : dop A B K) (s : S) : S := snd (do o s).
  (** The items, in iteration order. *)
  Definition all (s : S) : dout A B := dask DItems s.

  Record dict_laws (s : S) : Prop := {
    (** Iteration, [values], [items] and [len]; the reversed ones. *)
    dlaw_views : exists l, all s = OItems l /\ dask DIter s = OKeys (map fst l) /\ dask DValues s = OVals (map snd l) /\ dask DLen s = ONat (length l) /\
      dask DReversed s = OKeys (rev (map fst l)) /\ dask DKeysReversed s = OKeys (rev (map fst l)) /\ dask DValuesReversed s = OVals (rev (map snd l)) /\
      dask DItemsReversed s = OItems (rev l);
    (** The views and [peekitem] at an index; what is there is stored under its key. *)
    dlaw_at : forall i, dask (DPeekItem i) s = dask (DItemAt i) s /\
      ((exists k v, dask (DItemAt i) s = OItem (k, v) /\ dask (DKeyAt i) s = OKey k /\ dask (DValueAt i) s = OVal v /\ dask (DGetItem k) s = OVal v) \/
       (dask (DItemAt i) s = OExn IndexError /\ dask (DKeyAt i) s = OExn IndexError /\ dask (DValueAt i) s = OExn IndexError));
    dlaw_slices : forall sl,
      (exists l, dask (DItemSlice sl) s = OItems l /\ dask (DKeySlice sl) s = OKeys (map fst l) /\ dask (DValueSlice sl) s = OVals (map snd l)) \/
      (dask (DItemSlice sl) s = OExn ValueError /\ dask (DKeySlice sl) s = OExn ValueError /\ dask (DValueSlice sl) s = OExn ValueError);
    (** All ways to look a key up agree. *)
    dlaw_lookup : forall k,
      (exists v, dask (DGetItem k) s = OVal v /\ dask (DContains k) s = OBool true /\ dask (DDel k) s = ONone /\
         forall d, dask (DGet k d) s = OVal v /\ dask (DPop k (Some d)) s = OVal v /\ dask (DPop k None) s = OVal v /\ dask (DSetDefault k d) s = OVal v) \/
      (dask (DGetItem k) s = OExn KeyError /\ dask (DContains k) s = OBool false /\ dask (DDel k) s = OExn KeyError /\ dask (DPop k None) s = OExn KeyError /\
         forall d, dask (DGet k d) s = OVal d /\ dask (DPop k (Some d)) s = OVal d /\ dask (DSetDefault k d) s = OVal d);
    (** Assignment: what is read afterwards; twice is once; undone by [del]; of what is there already. *)
    dlaw_set : forall k v,
      (forall k', dask (DGetItem k') (dafter (DSet k v) s) = if eqb k k' then OVal v else dask (DGetItem k') s) /\
      (forall w, all (dafter (DSet k w) (dafter (DSet k v) s)) = all (dafter (DSet k w) s)) /\
      (dask (DContains k) s = OBool false -> all (dafter (DDel k) (dafter (DSet k v) s)) = all s) /\
      (dask (DGetItem k) s = OVal v -> all (dafter (DSet k v) s) = all s);
    dlaw_del : forall k k', dask (DGetItem k') (dafter (DDel k) s) = if eqb k k' then OExn KeyError else dask (DGetItem k') s;
    (** [pop], [popitem] and [setdefault] by reading, deleting and assigning. *)
    dlaw_pop : forall k d, all (dafter (DPop k d) s) = all (dafter (DDel k) s);
    dlaw_popitem : forall i, match dask (DPeekItem i) s with
      | OItem (k, v) => dask (DPopItem i) s = OItem (k, v) /\ all (dafter (DPopItem i) s) = all (dafter (DDel k) s)
      | _ => dask (DPopItem i) s = OExn (match dask DLen s with ONat 0 => KeyError | _ => IndexError end) /\ all (dafter (DPopItem i) s) = all s
      end;
    dlaw_view_del : forall i, match dask (DPeekItem i) s with
      | OItem (k, v) => dask (DViewDel i) s = ONone /\ all (dafter (DViewDel i) s) = all (dafter (DDel k) s)
      | r => dask (DViewDel i) s = r /\ all (dafter (DViewDel i) s) = all s
      end;
    dlaw_setdefault : forall k v, all (dafter (DSetDefault k v) s) = match dask (DContains k) s with OBool true => all s | _ => all (dafter (DSet k v) s) end;
    (** [update] is assignment of one item after the other; [|=] is [update], [|] a copy that is updated. *)
    dlaw_update : all (dafter (DUpdate (APairs [])) s) = all s /\
      (forall k v ps, all (dafter (DUpdate (APairs ((k, v) :: ps))) s) = all (dafter (DUpdate (APairs ps)) (dafter (DSet k v) s))) /\
      (forall ps, all (dafter (DUpdate (ADict ps)) s) = all (dafter (DUpdate (APairs ps)) s)) /\
      (forall a, all (dafter (DIOr a) s) = all (dafter (DUpdate a) s)) /\
      (forall ps, all (dafter (DOr ps) s) = all (dafter (DUpdate (ADict ps)) (dafter DCopy s)));
    dlaw_copy : all (dafter DCopy s) = all s;
    dlaw_clear : all (dafter DClear s) = OItems [] }.
End Laws.

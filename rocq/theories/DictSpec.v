(** * Reference semantics of SortedDict *)
From Coq Require Import Permutation.
From Verif Require Import PyBase Model Spec History Reach ListClass ClassSpec ModelSet SetSpec ModelDict.
Local Set Implicit Arguments.

(** ** A plain mapping: its items in insertion order *)
Section Plain.
  Context {A B K : Type}.
  Variables ltb eqb : A -> A -> bool.
  Variable veqb : B -> B -> bool.
  Variable fref : fwd A K -> list A -> out A * list A.
  Notation map_t := (list (A * B)).

  Definition same (k : A) (p : A * B) : bool := eqb (fst p) k.
  (** The value stored under [k]. *)
  Definition lookup (k : A) (d : map_t) : option B := option_map snd (find (same k) d).
  (** [d[k] = v]: a present key keeps its place, a new one goes to the end. *)
  Definition store (k : A) (v : B) (d : map_t) : map_t :=
    match lookup k d with
    | Some _ => map (fun p => (fst p, if same k p then v else snd p)) d
    | None => d ++ [(k, v)]
    end.
  (** [del d[k]] *)
  Definition erase (k : A) (d : map_t) : map_t := filter (fun p => negb (same k p)) d.
  (** All of [ps], one after the other. *)
  Fixpoint merge (d ps : map_t) : map_t :=
    match ps with [] => d | (k, v) :: t => merge (store k v d) t end.

  (** The items in key order, ties in insertion order. *)
  Definition item_lt (p q : A * B) : bool := ltb (fst p) (fst q).
  Definition listing (d : map_t) : map_t := sp_sort item_lt d.

  (** A read that may fail. *)
  Definition reply {X} (inj : X -> dout A B) (r : res X) : dout A B :=
    match r with Ok x => inj x | Err e => OExn e end.

  (** One operation on the plain mapping: its result and the mapping afterwards. *)
  Definition ref_step (o : dop A B K) (d : map_t) : dout A B * map_t :=
    let l := listing d in
    match o with
    | DSet k v => (ONone, store k v d)
    | DDel k => match lookup k d with Some _ => (ONone, erase k d) | None => (OExn KeyError, d) end
    | DGetItem k => (match lookup k d with Some v => OVal v | None => OExn KeyError end, d)
    | DGet k v => (OVal (match lookup k d with Some w => w | None => v end), d)
    | DContains k => (OBool (match lookup k d with Some _ => true | None => false end), d)
    | DLen => (ONat (length d), d)
    | DIter => (OKeys (map fst l), d)
    | DReversed | DKeysReversed => (OKeys (rev (map fst l)), d)
    | DClear => (ONone, [])
    | DPop k dv =>
        match lookup k d, dv with
        | Some v, _ => (OVal v, erase k d)
        | None, Some v => (OVal v, d)
        | None, None => (OExn KeyError, d)
        end
    | DPopItem i =>
        match d with
        | [] => (OExn KeyError, d)
        | _ => match getz l i with Ok p => (OItem p, erase (fst p) d) | Err e => (OExn e, d) end
        end
    | DPeekItem i | DItemAt i => (reply OItem (getz l i), d)
    | DSetDefault k v =>
        match lookup k d with Some w => (OVal w, d) | None => (OVal v, store k v d) end
    | DUpdate a | DIOr a => (ONone, merge d (pairs_of a))
    | DOr other => (ONone, merge l other)
    | DROr other => (ONone, merge (merge [] other) l)
    | DCopy => (ONone, l)
    | DReduce insertion => (ONone, if insertion then d else l)
    | DItems => (OItems l, d)
    | DValues => (OVals (map snd l), d)
    | DItemsReversed => (OItems (rev l), d)
    | DValuesReversed => (OVals (rev (map snd l)), d)
    | DItemIn k v => (OBool (match lookup k d with Some w => veqb w v | None => false end), d)
    | DValueIn v => (OBool (existsb (fun p => veqb (snd p) v) d), d)
    | DKeyAt i => (reply OKey (getz (map fst l) i), d)
    | DValueAt i => (reply OVal (getz (map snd l) i), d)
    | DKeySlice sl => (reply OKeys (sp_slice sl (map fst l)), d)
    | DItemSlice sl => (reply OItems (sp_slice sl l), d)
    | DValueSlice sl => (reply OVals (sp_slice sl (map snd l)), d)
    | DViewDel i =>
        match getz l i with Ok p => (ONone, erase (fst p) d) | Err e => (OExn e, d) end
    | DViewDelSlice sl =>
        match sp_slice sl l with
        | Ok ps => (ONone, filter (fun p => negb (existsb (same (fst p)) ps)) d)
        | Err e => (OExn e, d)
        end
    | DEq other =>
        (OBool (forallb (fun p => match lookup (fst p) other with Some w => veqb (snd p) w | None => false end) d &&
                forallb (fun p => match lookup (fst p) d with Some _ => true | None => false end) other), d)
    | DFwd f => (OFwd (fst (fref f (map fst l))), d)
    end.
  Definition ref_run := run ref_step.

  (** [v] is stored under [k]. *)
  Definition maps (d : map_t) (k : A) (v : B) : Prop := exists k', In (k', v) d /\ eqb k' k = true.
  Definition has_key (d : map_t) (k : A) : Prop := exists v, maps d k v.
  (** [v] is what the last pair for [k] in [ps] says. *)
  Definition last_says (ps : map_t) (k : A) (v : B) : Prop :=
    exists a k' b, ps = a ++ (k', v) :: b /\ eqb k' k = true /\ forall p, In p b -> eqb (fst p) k = false.
  (** Each key occurs once. *)
  Definition distinct_keys (d : map_t) : Prop := distinct eqb (map fst d).
  (** Two mappings have the same items. *)
  Definition same_mapping (d o : map_t) : Prop :=
    (forall k v, maps d k v -> exists w, maps o k w /\ veqb v w = true) /\
    (forall k, has_key o k -> has_key d k).
End Plain.

(** The other side of [==] is a dict, so its keys are distinct; load factors are positive. *)
Definition dop_ok {A B K} (eqb : A -> A -> bool) (o : dop A B K) : Prop :=
  match o with
  | DEq other => distinct_keys eqb other
  | DFwd f => fwd_ok f
  | _ => True
  end.

Section ReachDict.
  Context {S A B K : Type}.
  Variable T : listcls S A K.
  Variable eqb : A -> A -> bool.
  Variable veqb : B -> B -> bool.

  (** [list(sd.items())] is [l], and reading it changes nothing. *)
  Definition sd_shows (s : sdict S A B) (l : list (A * B)) : Prop := sd_items T eqb s = (Ok l, s).
  (** [s] is obtained from [SortedDict(key, a)] by a history. *)
  Definition sd_reach (s : sdict S A B) : Prop :=
    exists a s0 ops, sd_new T eqb a = Ok s0 /\ Forall (dop_ok eqb) ops /\
      s = snd (sd_run T eqb veqb ops s0).

  (** The two ways in which [update] on a non-empty dict may proceed: all pairs at once, or one
      by one. *)
  Definition update_all (ps : list (A * B)) : M (sdict S A B) unit :=
    d <- items_of (S:=S) ;; put_items (d_update eqb d ps) ;;; onkeys (l_clear T) ;;; keys_update T.
  Definition update_one_by_one (ps : list (A * B)) : M (sdict S A B) unit :=
    forM (fun p => sd_setitem T eqb (fst p) (snd p)) ps.
End ReachDict.

(** Every [_reset] sets a load factor of at least [n]. *)
Definition dresets_from {A B K} (n : nat) (o : dop A B K) : Prop :=
  match o with DFwd (FReset ld) => n <= ld | _ => True end.

(** The exceptions each operation documents; the key variants of the exposed list methods do not
    exist without a key function. *)
Definition ddocumented {A B K} (keyless : Prop) (o : dop A B K) (r : dout A B) : Prop :=
  match o, r with
  | (DDel _ | DGetItem _ | DPop _ None), OExn e => e = KeyError
  | DPopItem _, OExn e => e = KeyError \/ e = IndexError
  | (DPeekItem _ | DKeyAt _ | DItemAt _ | DValueAt _ | DViewDel _), OExn e => e = IndexError
  | (DKeySlice sl | DItemSlice sl | DValueSlice sl | DViewDelSlice sl), OExn e =>
      e = ValueError /\ s_step sl = Some 0%Z
  | DFwd (FIndex _ _ _), OFwd (RExn e) => e = ValueError
  | DFwd (FBisectKeyLeft _ | FBisectKeyRight _ | FIRangeKey _ _ _ _ _), OFwd (RExn e) => keyless /\ e = AttributeError
  | _, OExn _ => False
  | _, OFwd (RExn _) => False
  | _, _ => True
  end.

(** * Specification vocabulary for programs with SortedDict objects

    [v_run]: the same programs where every SortedDict is a value, items and a sorted list, and an operation replaces the
    value it is called on, or appends a new one.  [m_run]: the same where every SortedDict is a plain mapping. *)
From Verif Require Import PyBase Model Spec History Reach ListClass ClassSpec ModelSet SetSpec ModelDict DictSpec ObjSpec ModelDObj.
Local Set Implicit Arguments.

(** The operations that return a new SortedDict. *)
Definition dmakes {A B K} (o : dop A B K) : bool :=
  match o with DOr _ | DROr _ | DCopy | DReduce _ => true | _ => false end.

(** The SortedDicts, given as values of type [D], the dicts of the program, the views. *)
Record vworld (D A B : Type) : Type :=
  mkvworld { v_dicts : list D; v_mine : list (list (A * B)); v_views : list nat }.
Arguments mkvworld {D A B}.

(** Programs for any way [step] of performing one operation on a value. *)
Section Generic.
  Context {D A B K : Type}.
  Variable eqb : A -> A -> bool.
  (** one operation; a new SortedDict; the items iterated; the items of the dict; what [__init__] makes of one *)
  Variable step : dop A B K -> D -> dout A B * D.
  Variable make : darg A B -> res D.
  Variable iterate : D -> res (list (A * B)) * D.
  Variable contents : D -> list (A * B).
  Variable again : D -> res D.
  Notation W := (vworld D A B).

  Definition v_set (i : nat) (d : D) (w : W) : W := mkvworld (put (v_dicts w) i d) (v_mine w) (v_views w).
  Definition v_add (d : D) (w : W) : W := mkvworld (v_dicts w ++ [d]) (v_mine w) (v_views w).
  Definition v_eval (a : qarg A B) : M W (darg A B) := fun w =>
    match a with
    | QLit ps => (Ok (APairs ps), w)
    | QMine u => (match nth_error (v_mine w) u with None => Err IndexError | Some d => Ok (ADict d) end, w)
    | QObj i =>
        match nth_error (v_dicts w) i with
        | None => (Err IndexError, w)
        | Some d => let (r, d') := iterate d in ((let! l := r in Ok (ADict l)), v_set i d' w)
        end
    end.
  Definition v_operand (a : qarg A B) : M W (list (A * B)) := fun w =>
    match a with
    | QLit ps => (Ok (merge eqb [] ps), w)
    | QMine u => (match nth_error (v_mine w) u with None => Err IndexError | Some d => Ok d end, w)
    | QObj i => (match nth_error (v_dicts w) i with None => Err IndexError | Some d => Ok (contents d) end, w)
    end.
  Definition v_do (i : nat) (o : dop A B K) (w : W) : dout A B * W :=
    match nth_error (v_dicts w) i with
    | None => (OExn IndexError, w)
    | Some d =>
        let (r, d') := step o d in
        (r, if dmakes o then match r with OExn _ => w | _ => v_add d' w end else v_set i d' w)
    end.
  Definition v_then {X} (m : M W X) (k : X -> W -> dout A B * W) (w : W) : dout A B * W :=
    match m w with (Ok a, w') => k a w' | (Err e, w') => (OExn e, w') end.
  Definition v_own (u : nat) (f : list (A * B) -> list (A * B)) (w : W) : dout A B * W :=
    match nth_error (v_mine w) u with
    | None => (OExn IndexError, w)
    | Some d => (ONone, mkvworld (v_dicts w) (put (v_mine w) u (f d)) (v_views w))
    end.
  Definition v_again (i : nat) : M W unit := fun w =>
    match nth_error (v_dicts w) i with
    | None => (Err IndexError, w)
    | Some d => match again d with Ok d' => (Ok tt, v_set i d' w) | Err e => (Err e, w) end
    end.

  Definition v_step (o : qop A B K) : W -> dout A B * W :=
    match o with
    | QDict a => v_then (v_eval a) (fun x w =>
        (ONone, mkvworld (v_dicts w) (v_mine w ++ [merge eqb [] (pairs_of x)]) (v_views w)))
    | QDictSet u k v => v_own u (store eqb k v)
    | QDictPop u k => v_own u (erase eqb k)
    | QDictLook u => v_then (v_eval (QMine u)) (fun x w => (OItems (pairs_of x), w))
    | QNew a => v_then (v_eval a) (fun x w => match make x with Ok d => (ONone, v_add d w) | Err e => (OExn e, w) end)
    | QInit i a => v_then (v_again i) (fun _ => v_then (v_eval a) (fun x => v_do i (DUpdate x)))
    | QOp i o => v_do i o
    | QUpdate i a => v_then (v_eval a) (fun x => v_do i (DUpdate x))
    | QOr i a => v_then (v_eval a) (fun x => v_do i (DOr (pairs_of x)))
    | QROr i a => v_then (v_eval a) (fun x => v_do i (DROr (pairs_of x)))
    | QEq i a => v_then (v_operand a) (fun x => v_do i (DEq x))
    | QView i => fun w =>
        match nth_error (v_dicts w) i with
        | None => (OExn IndexError, w)
        | Some _ => (ONone, mkvworld (v_dicts w) (v_mine w) (v_views w ++ [i]))
        end
    | QViewOp n o => fun w => match nth_error (v_views w) n with None => (OExn IndexError, w) | Some i => v_do i o w end
    end.
  Definition v_init : W := mkvworld [] [] [].
End Generic.

(** SortedDicts as values: [__init__] called again replaces the list by an empty one. *)
Definition v_run {S A B K} (T : listcls S A K) (eqb : A -> A -> bool) (veqb : B -> B -> bool) :=
  run (v_step eqb (sd_step T eqb veqb) (sd_new T eqb) (sd_items T eqb) (@d_items S A B)
         (fun d => let! l := l_new T [] in Ok (mksd (d_items d) l))).
(** SortedDicts as plain mappings: [__init__] called again changes nothing by itself. *)
Definition m_run {A B K} (ltb eqb : A -> A -> bool) (veqb : B -> B -> bool) (fref : fwd A K -> list A -> out A * list A) :=
  run (v_step eqb (ref_step ltb eqb veqb fref) (fun a => Ok (merge eqb [] (pairs_of a)))
         (fun d => (Ok (listing ltb d), d)) (fun d => d) (@Ok (list (A * B)))).

(** What a program sees of its SortedDicts. *)
Definition dseen {S A B} (w : qworld S A B) : list (list (A * B) * res S) :=
  map (fun o => (q_items o, getn (w_lists w) (q_list o))) (w_dicts w).
(** No list is used by two SortedDicts, and all bound methods belong to the current one. *)
Definition dunshared {S A B} (w : qworld S A B) : Prop :=
  NoDup (map (@q_list A B) (w_dicts w)) /\ Forall (fun o => q_cached o = q_list o /\ q_exposed o = q_list o) (w_dicts w).

(** [__init__] is not called again, and the operations are those of [dop_ok]. *)
Definition qop_ok {A B K} (eqb : A -> A -> bool) (o : qop A B K) : Prop :=
  match o with
  | QInit _ _ => False
  | QOp _ o | QViewOp _ o => dop_ok eqb o
  | _ => True
  end.
(** The [o]-th SortedDict lists [l]. *)
Definition lists_as {S A B K} (T : listcls S A K) (eqb : A -> A -> bool) (w : qworld S A B) (o : dobj A B) (l : list (A * B)) : Prop :=
  exists c, getn (w_lists w) (q_list o) = Ok c /\ sd_shows T eqb (mksd (q_items o) c) l.

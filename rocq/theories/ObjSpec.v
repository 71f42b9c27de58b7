(** * Specification vocabulary for programs with SortedSet objects

    [r_run]: the same programs where every SortedSet is a value, a pair of a set and a sorted list, and an operation
    replaces the value it is called on, or appends a new one. *)
From Coq Require Import Permutation.
From Verif Require Import PyBase Model Spec History Reach ListClass ClassSpec ModelSet SetSpec ModelObj.
Local Set Implicit Arguments.

Record rworld (S V : Type) : Type := mkrworld { r_objs : list (list V * S); r_mine : list (list V); r_tick : nat }.
Arguments mkrworld {S V}.

(** The operations that return a new SortedSet. *)
Definition makes {V K} (o : sop V K) : bool :=
  match o with
  | SUnion _ | SDifference _ | SIntersection _ | SSymmetricDifference _ | SCopy | SReduce => true
  | _ => false
  end.

(** [l] with the entry at [i] replaced. *)
Fixpoint put {A} (l : list A) (i : nat) (x : A) : list A :=
  match l, i with
  | [], _ => []
  | _ :: t, 0 => x :: t
  | y :: t, S j => y :: put t j x
  end.

Section Values.
  Context {S V K : Type}.
  Variable T : listcls S V K.
  Variable eqb : V -> V -> bool.
  Variable ord : nat -> list V -> list V.
  Notation W := (rworld S V).

  Definition value (w : W) (p : list V * S) : sset S V := mksset (fst p) (snd p) (r_tick w).
  Definition put_value (i : nat) (s : sset S V) (w : W) : W :=
    mkrworld (put (r_objs w) i (s_set s, s_list s)) (r_mine w) (s_tick s).
  Definition add_value (s : sset S V) (w : W) : W :=
    mkrworld (r_objs w ++ [(s_set s, s_list s)]) (r_mine w) (s_tick s).

  Definition r_on {A} (i : nat) (m : M (sset S V) A) : M W A := fun w =>
    match nth_error (r_objs w) i with
    | None => (Err IndexError, w)
    | Some p => let (a, s) := m (value w p) in (a, put_value i s w)
    end.
  Definition r_eval (a : parg V) : M W (arg (V:=V)) := fun w =>
    match a with
    | PLit l => (Ok (AIter l), w)
    | PMine u =>
        match nth_error (r_mine w) u with
        | None => (Err IndexError, w)
        | Some m => (Ok (ASet (ord (r_tick w) m)), mkrworld (r_objs w) (r_mine w) (r_tick w + 1))
        end
    | PObj i => r_on i (l <- ss_iter T ;; ret (AIter l)) w
    end.
  Definition r_operand (a : parg V) (w : W) : res (list V) * W :=
    match a with
    | PLit l => (Ok l, w)
    | PMine u => (match nth_error (r_mine w) u with None => Err IndexError | Some m => Ok m end, w)
    | PObj i => (match nth_error (r_objs w) i with None => Err IndexError | Some p => Ok (fst p) end, w)
    end.
  Definition r_do (i : nat) (o : sop V K) (w : W) : out V * W :=
    match nth_error (r_objs w) i with
    | None => (RExn IndexError, w)
    | Some p =>
        let (r, s) := ss_step T eqb ord o (value w p) in
        (r, if makes o then match r with RExn _ => w | _ => add_value s w end else put_value i s w)
    end.
  Definition r_eval_opt (a : option (parg V)) : M W (option (arg (V:=V))) :=
    match a with None => ret None | Some a => x <- r_eval a ;; ret (Some x) end.
  Definition r_then {A} (m : M W A) (k : A -> W -> out V * W) (w : W) : out V * W :=
    match m w with (Ok a, w') => k a w' | (Err e, w') => (RExn e, w') end.
  Definition r_own (u : nat) (f : list V -> list V) (w : W) : out V * W :=
    match nth_error (r_mine w) u with
    | None => (RExn IndexError, w)
    | Some m => (RUnit, mkrworld (r_objs w) (put (r_mine w) u (f m)) (r_tick w))
    end.
  (** [__init__] called on a SortedSet again: the list is built anew from the set, then filled. *)
  Definition r_again (i : nat) : M W unit := fun w =>
    match nth_error (r_objs w) i with
    | None => (Err IndexError, w)
    | Some p =>
        match ss_fromset T ord (r_tick w) (fst p) with
        | Ok s => (Ok tt, put_value i s w)
        | Err e => (Err e, mkrworld (r_objs w) (r_mine w) (r_tick w + 1))
        end
    end.

  Definition r_step (o : pop V K) : W -> out V * W :=
    match o with
    | PSet a => r_then (r_eval a) (fun x w =>
        (RUnit, mkrworld (r_objs w) (r_mine w ++ [set_of eqb (items x)]) (r_tick w)))
    | PAdd u v => r_own u (set_add eqb v)
    | PDiscard u v => r_own u (set_del eqb v)
    | PLook u => r_then (r_eval (PMine u)) (fun x w => (RList (items x), w))
    | PNew a => r_then (r_eval_opt a) (fun x w =>
        match ss_new T eqb ord (r_tick w) x with Ok s => (RUnit, add_value s w) | Err e => (RExn e, w) end)
    | PInit i a => r_then (r_again i) (fun _ => r_then (r_eval_opt a) (fun x =>
        match x with
        | None => fun w => (match nth_error (r_objs w) i with None => RExn IndexError | Some _ => RUnit end, w)
        | Some a => r_do i (SUpdate [a])
        end))
    | POp i o => r_do i o
    | PMany i c args => r_then (mapM r_eval args) (fun its => r_do i (many_op c its))
    | POne i c a => r_then (r_eval a) (fun x => r_do i (one_op c x))
    | PCompare i op a => r_then (r_operand a) (fun l => r_do i (SCompare op l))
    end.
End Values.

Section RunValues.
  Context {S V K : Type}.
  Variable T : listcls S V K.
  Variable eqb : V -> V -> bool.
  Variable ord : nat -> nat -> list V -> list V.
  Fixpoint r_run (n : nat) (ops : list (pop V K)) (w : list (list V * S) * list (list V)) :
      list (out V) * (list (list V * S) * list (list V)) :=
    match ops with
    | [] => ([], w)
    | o :: t =>
        let (r, w1) := r_step T eqb (ord n) o (mkrworld (fst w) (snd w) 0) in
        let (rs, w2) := r_run (n + 1) t (r_objs w1, r_mine w1) in
        (r :: rs, w2)
    end.
End RunValues.

(** Iterating the list changes nothing. *)
Definition iter_reads {S V K} (T : listcls S V K) : Prop := forall s, snd (l_iter T s) = s.
(** What a program sees of its SortedSets, and of its own sets. *)
Definition seen {S V} (w : pworld S V) : list (res (list V) * res S) :=
  map (fun o => (getn (h_sets (p_heap w)) (o_set o), getn (h_lists (p_heap w)) (o_list o))) (p_objs w).
Definition seen_mine {S V} (w : pworld S V) : list (res (list V)) := map (getn (h_sets (p_heap w))) (p_mine w).
(** No object is used twice, and the exposed methods belong to the current [_set] and [_list]. *)
Definition unshared {S V} (w : pworld S V) : Prop :=
  NoDup (map o_set (p_objs w) ++ p_mine w) /\ NoDup (map o_list (p_objs w)) /\
  Forall (fun o => m_set o = o_set o /\ m_list o = o_list o) (p_objs w).

(** ** Programs with mathematical sets

    A SortedSet is the list [l] of its values in order, a set of the program the list of its members. *)
Section Worlds.
  Context {V K : Type}.
  Variables ltb eqb : V -> V -> bool.
  Variable fref : fwd V K -> list V -> out V * list V.
  Notation objs_t := (list (list V)).

  (** What an argument is iterated as: a set of the program in any order. *)
  Definition stands (objs mine : objs_t) (a : parg V) (x : res (arg (V:=V))) : Prop :=
    match a with
    | PLit l => x = Ok (AIter l)
    | PMine u =>
        match nth_error mine u with
        | None => x = Err IndexError
        | Some m => exists p, Permutation p m /\ x = Ok (ASet p)
        end
    | PObj i => match nth_error objs i with None => x = Err IndexError | Some l => x = Ok (AIter l) end
    end.
  Definition stands_opt (objs mine : objs_t) (a : option (parg V)) (x : res (option (arg (V:=V)))) : Prop :=
    match a with
    | None => x = Ok None
    | Some a => exists y, stands objs mine a y /\ x = (let! z := y in Ok (Some z))
    end.
  Fixpoint stands_all (objs mine : objs_t) (args : list (parg V)) (x : res (list (arg (V:=V)))) : Prop :=
    match args with
    | [] => x = Ok []
    | a :: t => exists y ys, stands objs mine a y /\ stands_all objs mine t ys /\ x = (let! z := y in let! zs := ys in Ok (z :: zs))
    end.
  Definition stands_set (objs mine : objs_t) (a : parg V) (x : res (list V)) : Prop :=
    match a with
    | PLit l => x = Ok l
    | PMine u => match nth_error mine u with None => x = Err IndexError | Some m => x = Ok m end
    | PObj i => match nth_error objs i with None => x = Err IndexError | Some l => exists p, Permutation p l /\ x = Ok p end
    end.

  (** One operation on the [i]-th SortedSet. *)
  Definition obj_effect (i : nat) (o : sop V K) (objs : objs_t) (r : out V) (objs' : objs_t) : Prop :=
    match nth_error objs i with
    | None => r = RExn IndexError /\ objs' = objs
    | Some l => exists l', set_effect eqb fref o l r l' /\ objs' = (if makes o then objs ++ [l'] else put objs i l')
    end.
  (** The same with arguments, of which one may not exist. *)
  Definition given {A} (x : res A) (k : A -> Prop) (objs : objs_t) (r : out V) (objs' : objs_t) : Prop :=
    match x with Err e => r = RExn e /\ objs' = objs | Ok a => k a end.

  Definition world_effect (o : pop V K) (objs mine : objs_t) (r : out V) (objs' mine' : objs_t) : Prop :=
    match o with
    | PSet a => objs' = objs /\ exists x, stands objs mine a x /\
        given x (fun x => r = RUnit /\ exists m, mine' = mine ++ [m] /\
          (forall v, member eqb v m <-> member eqb v (items x)) /\ (forall v, In v m -> In v (items x))) mine r mine'
    | PAdd u v => objs' = objs /\
        match nth_error mine u with
        | None => r = RExn IndexError /\ mine' = mine
        | Some m => r = RUnit /\ exists m', mine' = put mine u m' /\
            ((member eqb v m /\ m' = m) \/ (~ member eqb v m /\ m' = m ++ [v]))
        end
    | PDiscard u v => objs' = objs /\
        match nth_error mine u with
        | None => r = RExn IndexError /\ mine' = mine
        | Some m => r = RUnit /\ exists m', mine' = put mine u m' /\ forall x, In x m' <-> In x m /\ eqb x v = false
        end
    | PLook u => objs' = objs /\ mine' = mine /\
        match nth_error mine u with None => r = RExn IndexError | Some m => exists p, Permutation p m /\ r = RList p end
    | PNew a => mine' = mine /\ exists x, stands_opt objs mine a x /\
        given x (fun x => r = RUnit /\ exists l, objs' = objs ++ [l] /\
          (forall v, member eqb v l <-> exists a, x = Some a /\ member eqb v (items a)) /\
          (forall v, In v l -> exists a, x = Some a /\ In v (items a))) objs r objs'
    | PInit i a => mine' = mine /\
        match nth_error objs i with
        | None => r = RExn IndexError /\ objs' = objs
        | Some l => exists l1, Permutation l1 l /\ let objs1 := put objs i l1 in exists x, stands_opt objs1 mine a x /\
            given x (fun x => match x with
                              | None => r = RUnit /\ objs' = objs1
                              | Some y => obj_effect i (SUpdate [y]) objs1 r objs'
                              end) objs1 r objs'
        end
    | POp i o => mine' = mine /\ obj_effect i o objs r objs'
    | PMany i c args => mine' = mine /\ exists x, stands_all objs mine args x /\
        given x (fun its => obj_effect i (many_op c its) objs r objs') objs r objs'
    | POne i c a => mine' = mine /\ exists x, stands objs mine a x /\
        given x (fun it => obj_effect i (one_op c it) objs r objs') objs r objs'
    | PCompare i op a => mine' = mine /\ exists x, stands_set objs mine a x /\
        given x (fun m => obj_effect i (SCompare op m) objs r objs') objs r objs'
    end.

  (** A program: after every operation each SortedSet is sorted and without equal values. *)
  Inductive world_history : list (pop V K) -> objs_t -> objs_t -> list (out V) -> objs_t -> objs_t -> Prop :=
  | wh_nil : forall objs mine, world_history [] objs mine [] objs mine
  | wh_cons : forall o ops objs mine r objs1 mine1 rs objs2 mine2,
      world_effect o objs mine r objs1 mine1 ->
      Forall (fun l => sorted ltb l /\ distinct eqb l) objs1 -> Forall (distinct eqb) mine1 ->
      world_history ops objs1 mine1 rs objs2 mine2 ->
      world_history (o :: ops) objs mine (r :: rs) objs2 mine2.
End Worlds.

Definition pop_ok {V K} (o : pop V K) : Prop := match o with POp _ o => sop_ok o | _ => True end.
(** The SortedSet [o] iterates as [l] and its hash set has the same members. *)
Definition shows_as {S V K} (T : listcls S V K) (w : pworld S V) (o : sobj) (l : list V) : Prop :=
  exists m c, getn (h_sets (p_heap w)) (o_set o) = Ok m /\ getn (h_lists (p_heap w)) (o_list o) = Ok c /\
    l_iter T c = (Ok l, c) /\ Permutation m l.

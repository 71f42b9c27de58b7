(** * [repr] of objects that contain one another, and themselves

    Objects in a heap; the texts of values that are no containers are given.  What is in which order in a container is not modelled
    here (C95). *)
From Coq Require Import String.
From Verif Require Import PyBase.
Local Set Implicit Arguments.
Local Open Scope string_scope.

(** A value that is no container, with its [repr], which may raise; or an object in the heap. *)
Inductive item : Type := Atom (t : res string) | Ref (i : nat).
(** A SortedList, a SortedKeyList, a SortedSet, a SortedDict, a view of a SortedDict, a list, a dict; with the name of its class. *)
Inductive node : Type :=
| NSortedList (name : string) (values : list item)
| NSortedKeyList (name : string) (values : list item) (key : item)
| NSortedSet (name : string) (values : list item) (key : option item)
| NSortedDict (name : string) (key : option item) (items : list (item * item))
| NView (name : string) (mapping : nat)
| NPyList (values : list item)
| NPyDict (items : list (item * item)).

(** The sets [repr_running] that [recursive_repr] (reprlib.py) makes, one for each function it decorates (sortedlist.py 1504 and 2434,
    sortedset.py 671, sorteddict.py 530), and that of the interpreter for lists and dicts. *)
Inductive fn : Type := FSortedList | FSortedKeyList | FSortedSet | FSortedDict | FPython.
Definition running : Type := list (fn * nat).
Definition fn_eqb (f g : fn) : bool :=
  match f, g with
  | FSortedList, FSortedList | FSortedKeyList, FSortedKeyList | FSortedSet, FSortedSet | FSortedDict, FSortedDict | FPython, FPython => true
  | _, _ => false
  end.
Definition same_run (a b : fn * nat) : bool := fn_eqb (fst a) (fst b) && Nat.eqb (snd a) (snd b).

(** Texts, with these sets; [None]: not yet finished when the fuel is used up. *)
Definition R (A : Type) : Type := running -> option (res A * running).
Definition rret {A} (a : A) : R A := fun g => Some (Ok a, g).
Definition rthen {A C} (m : R A) (k : A -> R C) : R C := fun g =>
  match m g with
  | Some (Ok a, g) => k a g
  | Some (Err e, g) => Some (Err e, g)
  | None => None
  end.
(** [recursive_repr(fillvalue)(f)] (reprlib.py): [if key in repr_running: return fillvalue; repr_running.add(key); try: f(self)
    finally: repr_running.discard(key)]. *)
Definition guarded (f : fn) (i : nat) (fillvalue : string) (body : R string) : R string := fun g =>
  if existsb (same_run (f, i)) g then Some (Ok fillvalue, g)
  else match body ((f, i) :: g) with
       | Some (r, g) => Some (r, filter (fun x => negb (same_run (f, i) x)) g)
       | None => None
       end.

Fixpoint each {A C} (f : A -> R C) (l : list A) : R (list C) :=
  match l with
  | [] => rret []
  | a :: t => rthen (f a) (fun c => rthen (each f t) (fun cs => rret (c :: cs)))
  end.

Section Repr.
  Variable h : list node.
  Fixpoint rep (fuel : nat) (x : item) : R string :=
    match fuel with
    | O => fun _ => None
    | S fuel =>
        (** [{list(self)!r}]: a list that nothing else refers to. *)
        let values l := rthen (each (rep fuel) l) (fun ts => rret ("[" ++ String.concat ", " ts ++ "]")) in
        let pairs l := rthen (each (fun p => rthen (rep fuel (fst p)) (fun k => rthen (rep fuel (snd p)) (fun v => rret (k ++ ": " ++ v)))) l)
          (fun ts => rret (String.concat ", " ts)) in
        match x with
        | Atom t => fun g => Some (t, g)
        | Ref i =>
            match nth_error h i with
            | None => fun g => Some (Err IndexError, g) (* there is no such object *)
            (** sortedlist.py 1504-1513 *)
            | Some (NSortedList name vs) => guarded FSortedList i "..." (rthen (values vs) (fun t => rret (name ++ "(" ++ t ++ ")")))
            (** sortedlist.py 2434-2444 *)
            | Some (NSortedKeyList name vs key) =>
                guarded FSortedKeyList i "..." (rthen (values vs) (fun t => rthen (rep fuel key) (fun k => rret (name ++ "(" ++ t ++ ", key=" ++ k ++ ")"))))
            (** sortedset.py 671-683 *)
            | Some (NSortedSet name vs key) =>
                guarded FSortedSet i "..." (
                  rthen (match key with None => rret "" | Some k => rthen (rep fuel k) (fun k => rret (", key=" ++ k)) end) (fun k =>
                  rthen (values vs) (fun t => rret (name ++ "(" ++ t ++ k ++ ")"))))
            (** sorteddict.py 530-544 *)
            | Some (NSortedDict name key kvs) =>
                guarded FSortedDict i "..." (
                  rthen (match key with None => rret "" | Some k => rthen (rep fuel k) (fun k => rret (k ++ ", ")) end) (fun k =>
                  rthen (pairs kvs) (fun t => rret (name ++ "(" ++ k ++ "{" ++ t ++ "})"))))
            (** [MappingView.__repr__] of collections.abc: [{0.__class__.__name__}({0._mapping!r})]. *)
            | Some (NView name d) => rthen (rep fuel (Ref d)) (fun t => rret (name ++ "(" ++ t ++ ")"))
            (** [list.__repr__], [dict.__repr__] of the interpreter. *)
            | Some (NPyList vs) => guarded FPython i "[...]" (values vs)
            | Some (NPyDict kvs) => guarded FPython i "{...}" (rthen (pairs kvs) (fun t => rret ("{" ++ t ++ "}")))
            end
        end
    end.
End Repr.

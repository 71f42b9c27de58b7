(** * The text an object should have: that of its contents, except [...] for an object inside itself *)
From Coq Require Import String.
From Verif Require Import PyBase ModelRepr.
Local Set Implicit Arguments.
Local Open Scope string_scope.

Section Text.
  Variable h : list node.
  Definition between (l : string) (ts : list string) (r : string) : string := l ++ String.concat ", " ts ++ r.
  Definition dots (n : node) : string := match n with NPyList _ => "[...]" | NPyDict _ => "{...}" | _ => "..." end.

  (** [shows p x t]: inside the objects [p], [x] is shown as [t]. *)
  Inductive shows : list nat -> item -> string -> Prop :=
  | sh_atom : forall p t, shows p (Atom (Ok t)) t
  | sh_inside : forall p i n, nth_error h i = Some n -> (forall name d, n <> NView name d) -> In i p -> shows p (Ref i) (dots n)
  | sh_list : forall p i name vs ts, nth_error h i = Some (NSortedList name vs) -> ~ In i p -> Forall2 (shows (i :: p)) vs ts ->
      shows p (Ref i) (name ++ "(" ++ between "[" ts "]" ++ ")")
  | sh_key_list : forall p i name vs key ts k, nth_error h i = Some (NSortedKeyList name vs key) -> ~ In i p -> Forall2 (shows (i :: p)) vs ts ->
      shows (i :: p) key k -> shows p (Ref i) (name ++ "(" ++ between "[" ts "]" ++ ", key=" ++ k ++ ")")
  | sh_set : forall p i name vs ts, nth_error h i = Some (NSortedSet name vs None) -> ~ In i p -> Forall2 (shows (i :: p)) vs ts ->
      shows p (Ref i) (name ++ "(" ++ between "[" ts "]" ++ ")")
  | sh_set_key : forall p i name vs key ts k, nth_error h i = Some (NSortedSet name vs (Some key)) -> ~ In i p -> Forall2 (shows (i :: p)) vs ts ->
      shows (i :: p) key k -> shows p (Ref i) (name ++ "(" ++ between "[" ts "]" ++ ", key=" ++ k ++ ")")
  | sh_dict : forall p i name kvs ts, nth_error h i = Some (NSortedDict name None kvs) -> ~ In i p -> Forall2 (shows_pair (i :: p)) kvs ts ->
      shows p (Ref i) (name ++ "(" ++ between "{" ts "}" ++ ")")
  | sh_dict_key : forall p i name key kvs ts k, nth_error h i = Some (NSortedDict name (Some key) kvs) -> ~ In i p -> Forall2 (shows_pair (i :: p)) kvs ts ->
      shows (i :: p) key k -> shows p (Ref i) (name ++ "(" ++ k ++ ", " ++ between "{" ts "}" ++ ")")
  | sh_view : forall p i name d t, nth_error h i = Some (NView name d) -> shows p (Ref d) t -> shows p (Ref i) (name ++ "(" ++ t ++ ")")
  | sh_py_list : forall p i vs ts, nth_error h i = Some (NPyList vs) -> ~ In i p -> Forall2 (shows (i :: p)) vs ts -> shows p (Ref i) (between "[" ts "]")
  | sh_py_dict : forall p i kvs ts, nth_error h i = Some (NPyDict kvs) -> ~ In i p -> Forall2 (shows_pair (i :: p)) kvs ts -> shows p (Ref i) (between "{" ts "}")
  with shows_pair : list nat -> item * item -> string -> Prop :=
  | sh_pair : forall p k v a b, shows p k a -> shows p v b -> shows_pair p (k, v) (a ++ ": " ++ b).

  Definition inside (n : node) : list item :=
    match n with
    | NSortedList _ vs | NSortedSet _ vs None | NPyList vs => vs
    | NSortedKeyList _ vs k | NSortedSet _ vs (Some k) => k :: vs
    | NSortedDict _ None kvs | NPyDict kvs => flat_map (fun p => [fst p; snd p]) kvs
    | NSortedDict _ (Some k) kvs => k :: flat_map (fun p => [fst p; snd p]) kvs
    | NView _ d => [Ref d]
    end.
  (** References lead to objects, and views are views of SortedDicts. *)
  Definition item_ok (x : item) : Prop := match x with Atom _ => True | Ref i => i < length h end.
  Definition heap_ok : Prop := forall n, In n h ->
    Forall item_ok (inside n) /\ match n with NView _ d => exists name k kvs, nth_error h d = Some (NSortedDict name k kvs) | _ => True end.
  (** [e] is what [repr] of a value somewhere inside raises. *)
  Inductive raises : item -> exn -> Prop :=
  | ra_atom : forall e, raises (Atom (Err e)) e
  | ra_in : forall i n y e, nth_error h i = Some n -> In y (inside n) -> raises y e -> raises (Ref i) e.
End Text.

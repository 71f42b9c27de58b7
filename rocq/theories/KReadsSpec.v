(** * Key functions and comparisons that read the SortedKeyList *)
From Verif Require Import PyBase Model Spec History Reach KeyUseSpec.
Local Set Implicit Arguments.

Definition kquery {V K} (o : kop V K) : Prop := match o with KList o => query o | _ => True end.

(** The user's functions, and what they answer. *)
Record calls (V K : Type) : Type := mkcalls {
  c_vlt : V -> V -> M (skl V K) bool; c_eq : V -> V -> M (skl V K) bool;
  c_klt : K -> K -> M (skl V K) bool; c_keq : K -> K -> M (skl V K) bool; c_key : V -> M (skl V K) K }.
Record answers (V K : Type) : Type := mkanswers {
  a_vlt : V -> V -> bool; a_eq : V -> V -> bool; a_klt : K -> K -> bool; a_keq : K -> K -> bool; a_key : V -> K }.

Section Spec.
  Context {V K : Type}.
  Variable a : answers V K.
  Variable dflt : nat.
  Notation reach := (skl_reach (a_key a) (a_klt a) (a_keq a) (a_vlt a) (a_eq a) dflt).
  Notation do := (skl_do (a_key a) (a_klt a) (a_keq a) (a_vlt a) (a_eq a) dflt).

  (** The call answers [x] after some queries of the list, whenever the list is one that public operations make and has contents [m]. *)
  Definition asks_and {A} (m : list V) (call : M (skl V K) A) (x : A) : Prop :=
    forall s, reach s -> kshows s m -> exists qs, Forall kquery qs /\ call s = (Ok x, snd (run do qs s)).
  Definition kreads (u : calls V K) (m : list V) : Prop :=
    (forall x y, asks_and m (c_vlt u x y) (a_vlt a x y)) /\ (forall x y, asks_and m (c_eq u x y) (a_eq a x y)) /\
    (forall x y, asks_and m (c_klt u x y) (a_klt a x y)) /\ (forall x y, asks_and m (c_keq u x y) (a_keq a x y)) /\
    (forall v, asks_and m (c_key u v) (a_key a v)).

  (** The contents of the list when an operation on a list with contents [l] compares or asks for a key. *)
  Definition kseen (o : kop V K) (l m : list V) : Prop :=
    match o with
    | KList (LUpdate it | LIAdd it) =>
        exists k, m = fold_left (fun l v => sp_add (by_key (a_key a) (a_klt a)) v l) (firstn k (sp_sort (by_key (a_key a) (a_klt a)) it)) l
    | _ => m = l
    end.

  (** The operation does what it does with functions that answer the same and read nothing. *)
  Definition kas_without (step : kop V K -> skl V K -> out V * skl V K) (o : kop V K) (s : skl V K) : Prop :=
    exists r s1 s2 m, do o s = (r, s1) /\ kshows s1 m /\ step o s = (r, s2) /\ reach s2 /\ kshows s2 m.
End Spec.

(** The operation fills the list itself anew, with at least one value: [update] and [+=] by a quarter of the length or more, deletion of a
    slice of step 1 that is an eighth or more but not all, [_reset] and [*=]. *)
Definition refills {V K} (o : kop V K) (l : list V) : bool :=
  match o with
  | KList (LUpdate it | LIAdd it) => negb (is_nil it) && (length l <=? 4 * length it)
  | KList (LDelSlice _ | LReset _ | LIMul _) => negb (is_nil (touches o l))
  | _ => false
  end.

(** Numbers sorted by their half.  All functions first ask for the length, the fourth value and the place of a key; or count the list
    and fail an assertion if it has not the length it says. *)
Definition halves : answers nat nat := mkanswers Nat.ltb Nat.eqb Nat.ltb Nat.eqb (fun v => v / 2).
Definition khalf_do := skl_do (fun v => v / 2) Nat.ltb Nat.eqb Nat.ltb Nat.eqb 2.
Definition knosy {A} (x : A) : M (skl nat nat) A := fun s => (Ok x, snd (run khalf_do [KList LLen; KList (LGet 3); KBisectLeft 4] s)).
Definition kwary {A} (x : A) : M (skl nat nat) A := fun s =>
  if len (kc s) =? length (concat (lists (kc s))) then (Ok x, s) else (Err AssertionError, s).
Definition with_calls (f : forall A, A -> M (skl nat nat) A) : calls nat nat :=
  mkcalls (fun x y => f _ (x <? y)) (fun x y => f _ (x =? y)) (fun x y => f _ (x <? y)) (fun x y => f _ (x =? y)) (fun v => f _ (v / 2)).
(** Functions that read nothing. *)
Definition only_answers {V K} (a : answers V K) : calls V K :=
  mkcalls (fun x y => ret (a_vlt a x y)) (fun x y => ret (a_eq a x y)) (fun x y => ret (a_klt a x y)) (fun x y => ret (a_keq a x y)) (fun v => ret (a_key a v)).

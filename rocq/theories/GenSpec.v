(** * What a generator does, seen from outside *)
From Verif Require Import PyBase Model Spec History Reach ListClass ClassSpec ModelSet SetSpec ModelDict DictSpec ModelGen.
Local Set Implicit Arguments.

Section Feeds.
  Context {Op Out A L : Type}.
  (** [eff o l r l']: the operation [o] on contents [l] returns [r] and leaves [l']. *)
  Variable eff : Op -> L -> Out -> L -> Prop.

  Definition then_value (a : A) (r : res (list A)) : res (list A) :=
    match r with Ok l => Ok (a :: l) | Err e => Err e end.
  (** Exhausting the generator over a container with contents [l] gives the values or the
      exception [r] and leaves the contents [l']. *)
  Inductive feeds : gen Op Out A -> L -> res (list A) -> L -> Prop :=
  | f_end : forall l, feeds GEnd l (Ok []) l
  | f_raise : forall e l, feeds (GRaise e) l (Err e) l
  | f_call : forall o k l r l1 out l2, eff o l r l1 -> feeds (k r) l1 out l2 -> feeds (GCall o k) l out l2
  | f_yield : forall a g l out l1, feeds g l out l1 -> feeds (GYield a g) l (then_value a out) l1.
  (** The same, keeping only the yielded values that satisfy [P] when they are yielded. *)
  Variable P : L -> A -> Prop.
  Inductive feeds_found : gen Op Out A -> L -> res (list A) -> L -> Prop :=
  | ff_end : forall l, feeds_found GEnd l (Ok []) l
  | ff_raise : forall e l, feeds_found (GRaise e) l (Err e) l
  | ff_call : forall o k l r l1 out l2,
      eff o l r l1 -> feeds_found (k r) l1 out l2 -> feeds_found (GCall o k) l out l2
  | ff_found : forall a g l out l1, P l a -> feeds_found g l out l1 -> feeds_found (GYield a g) l (then_value a out) l1
  | ff_other : forall a g l out l1, ~ P l a -> feeds_found g l out l1 -> feeds_found (GYield a g) l out l1.
End Feeds.

Definition list_eff {V} (ltb eqb : V -> V -> bool) (o : lop V) (l : list V) (r : out V) (l' : list V) : Prop :=
  sp_step ltb eqb ltb o l = (r, l').
Definition key_eff {V K} (key : V -> K) (kltb : K -> K -> bool) (vltb eqb : V -> V -> bool)
    (o : kop V K) (l : list V) (r : out V) (l' : list V) : Prop :=
  sp_kstep eqb vltb key kltb o l = (r, l').
Definition sets_eff {V K} (ltb eqb : V -> V -> bool) (fref : fwd V K -> list V -> out V * list V)
    (o : sop V K) (l : list V) (r : out V) (l' : list V) : Prop :=
  set_effect eqb fref o l r l' /\ sorted ltb l' /\ distinct eqb l'.
Definition dict_eff {A B K} (ltb eqb : A -> A -> bool) (veqb : B -> B -> bool) (fref : fwd A K -> list A -> out A * list A)
    (o : dop A B K) (d : list (A * B)) (r : dout A B) (d' : list (A * B)) : Prop :=
  ref_step ltb eqb veqb fref o d = (r, d').

(** A generator that calls nothing: it yields [vs], then ends or raises. *)
Definition plain_gen {Op Out A} (vs : list A) (e : option exn) : gen Op Out A :=
  yields vs (match e with None => GEnd | Some e => GRaise e end).

(** From [s] on, every history behaves like a set iterated as [l], or like the plain mapping
    [d]. *)
Definition set_behaves {S V K} (T : listcls S V K) (ltb eqb : V -> V -> bool) (fref : fwd V K -> list V -> out V * list V)
    (ord : nat -> list V -> list V) (s : sset S V) (l : list V) : Prop :=
  ss_shows T s l /\
  forall ops, Forall sop_ok ops -> exists rs s' l', ss_run T eqb ord ops s = (rs, s') /\
    set_history ltb eqb fref ops l rs l' /\ ss_shows T s' l'.
Definition dict_behaves {S A B K} (T : listcls S A K) (ltb eqb : A -> A -> bool) (veqb : B -> B -> bool)
    (fref : fwd A K -> list A -> out A * list A) (s : sdict S A B) (d : list (A * B)) : Prop :=
  sd_shows T eqb s (listing ltb d) /\
  forall ops, Forall (dop_ok eqb) ops -> exists s',
    sd_run T eqb veqb ops s = (fst (ref_run ltb eqb veqb fref ops d), s') /\
    sd_shows T eqb s' (listing ltb (snd (ref_run ltb eqb veqb fref ops d))).

(** * Objects that behave from now on as they should, and operations after which an object does *)
From Coq Require Import Permutation.
From Verif Require Import PyBase Model Spec History Reach ListClass ClassSpec ModelSet SetSpec ModelDict DictSpec.
Local Set Implicit Arguments.

(** Every further history does what it does to the plain sorted list [l], and to a set or mapping. *)
Definition sl_behaves {V} (ltb eqb : V -> V -> bool) (dflt : nat) (c : core V V) (l : list V) : Prop :=
  shows c l /\ sorted ltb l /\
  forall ops, Forall lop_ok ops -> exists c',
    sl_run (total2 ltb) (total2 eqb) dflt ops c = (fst (sp_run ltb eqb ltb ops l), c') /\ shows c' (snd (sp_run ltb eqb ltb ops l)).
Definition skl_behaves {V K} (key : V -> K) (kltb keqb : K -> K -> bool) (vltb eqb : V -> V -> bool) (dflt : nat) (s : skl V K) (l : list V) : Prop :=
  kshows s l /\ sorted (by_key key kltb) l /\
  forall ops, Forall kop_ok ops -> Forall (comparable vltb eqb) ops -> exists s',
    skl_run (total2 vltb) (total2 eqb) (total2 kltb) (total2 keqb) (total1 key) dflt ops s = (fst (sp_krun eqb vltb key kltb ops l), s') /\
    kshows s' (snd (sp_krun eqb vltb key kltb ops l)).
Definition ss_behaves {S V K} (T : listcls S V K) (ltb eqb : V -> V -> bool) (fref : fwd V K -> list V -> out V * list V)
    (ord : nat -> list V -> list V) (s : sset S V) (l : list V) : Prop :=
  ss_shows T s l /\ sorted ltb l /\ distinct eqb l /\
  forall ops, Forall sop_ok ops -> exists rs s' l',
    ss_run T eqb ord ops s = (rs, s') /\ set_history ltb eqb fref ops l rs l' /\ ss_shows T s' l'.
Definition sd_behaves {S A B K} (T : listcls S A K) (ltb eqb : A -> A -> bool) (veqb : B -> B -> bool)
    (fref : fwd A K -> list A -> out A * list A) (s : sdict S A B) (d : list (A * B)) : Prop :=
  sd_shows T eqb s (listing ltb d) /\
  forall ops, Forall (dop_ok eqb) ops -> exists s',
    sd_run T eqb veqb ops s = (fst (ref_run ltb eqb veqb fref ops d), s') /\
    sd_shows T eqb s' (listing ltb (snd (ref_run ltb eqb veqb fref ops d))).

(** The operations of a SortedList or SortedKeyList that make all of it anew, and the values that are in it then, of those [l] that it is
    iterated with. *)
Definition renews {V} (o : lop V) (l : list V) : option (list V) :=
  match o with
  | LClear => Some []
  | LReset _ | LCopy | LReduce => Some l
  | LPlus it => Some (l ++ it)
  | LIMul n | LMul n => Some (sp_mul n l)
  | _ => None
  end.

(** Those of a SortedSet with members [m], whatever is in its list. *)
Definition set_renews {V K} (eqb : V -> V -> bool) (o : sop V K) (m : list V) : bool :=
  match o with
  | SClear | SCopy | SReduce | SDifference _ | SIntersection _ | SSymmetricDifference _
  | SIntersectionUpdate _ | SSymmetricDifferenceUpdate _ => true
  | SUpdate its | SDifferenceUpdate its => length m <? 4 * length (set_of eqb (concat (map (@items V) its)))
  | _ => false
  end.

(** Those of a SortedDict with items [d], whatever is in its list. *)
Definition dict_renews {A B K} (eqb : A -> A -> bool) (o : dop A B K) (d : list (A * B)) : bool :=
  match o with
  | DClear | DReduce true => true
  | DUpdate (APairs ps) | DIOr (APairs ps) => negb (length d =? 0) && (length d <? 10 * length (merge eqb [] ps))
  | DUpdate (ADict ps) | DIOr (ADict ps) => negb (length d =? 0) && (length d <? 10 * length ps)
  | _ => false
  end.
